(** Model of src/H2Pack_HSS_ULV.c: ULV LU and Cholesky factorisation of an HSS
    matrix plus a multiple of the identity, and the solves.  Numbers are an
    arbitrary commutative ring, LAPACK/TRSM routines are those of a record
    [lapack] (contract: Spec_Lapack.v), block lookup (H2P_get_Bij_block,
    H2P_get_Dij_block) is a parameter as in Model_Matmul.v.  Every array access
    is checked ([None]: outside the array, uninitialised cell, NULL matrix, or a
    failed ASSERT_PRINTF).

    OpenMP: the nodes of a level are processed in an arbitrary order on arbitrary
    threads ([omp_for]); one node is atomic.  In particular the flag
    nonsingular / is_SPD, which threads read and write without synchronisation,
    is seen at once.  Timers, mat_size statistics and the leak of an earlier
    factorisation are left out. *)
From Coq Require Import ZArith List Lia Bool Permutation.
From Verif Require Import Base Mem Num CRing Conc Model_Utils Model_Dense Model_CSR Model_Partition Model_Pairs Model_Matvec Model_Build Model_Matmul Spec_Lapack Blk.
Import ListNotations.
Open Scope Z_scope.

Section ULV.
Context {F : num} {K : cring}.
Local Open Scope ring_K.
Variable la : lapack K.

(** ** Library calls on regions of arrays *)

(** cblas_?gemm(RowMajor, ta, NoTrans, m, n, k, -1, A, lda, B, ldb, 1, C, ldc) and
    cblas_?gemv (n = 1, unit strides): C := C - op(A) B. *)
Definition gemm_neg (ta : bool) (m n k : Z) (A : mem K) (ao lda : Z) (B : mem K) (bo ldb : Z) (C : mem K) (co ldc : Z) : option (mem K) :=
  a <- rd (if ta then k else m) (if ta then m else k) A ao lda;
  b <- rd k n B bo ldb;
  c <- rd m n C co ldc;
  wr m n (fun i j => c i j - rsum 0 k (fun l => (if ta then a l i else a i l) * b l j)) C co ldc.

(** LAPACKE_?ormqr(RowMajor, side, trans, m, n, k, A, lda, tau, C, ldc): the
    reflectors are at offset ao, tau at offset to of [A]. *)
Definition ormqr (left trans : bool) (m n k : Z) (A : mem K) (ao lda to : Z) (C : mem K) (co ldc : Z) : option (mem K) :=
  let nq := if left then m else n in
  a <- rd nq k A ao lda;
  tau <- rd 1 k A to k;
  c <- rd m n C co ldc;
  let Q := qmat nq k a (tau 0%Z) in
  wr m n (fun i j => if left then rsum 0 m (fun l => top trans Q i l * c l j) else rsum 0 n (fun l => c i l * top trans Q l j)) C co ldc.

(** cblas_?trsm(RowMajor, side, uplo, trans, diag, m, n, 1, A, lda, B, ldb). *)
Definition trsm (left lower trans unit : bool) (m n : Z) (A : mem K) (ao lda : Z) (B : mem K) (bo ldb : Z) : option (mem K) :=
  let na := if left then m else n in
  a <- rd na na A ao lda;
  b <- rd m n B bo ldb;
  wr m n (l_trsm la left lower trans unit m n a b) B bo ldb.

(** LAPACKE_?getrf and LAPACKE_?potrf('L') in place; potrf leaves the strict upper
    triangle alone. *)
Definition getrf (n : Z) (A : mem K) (ao lda : Z) : option (Z * mem K * (Z -> Z)) :=
  a <- rd n n A ao lda;
  let '(info, f, piv) := l_getrf la n a in
  A <- wr n n f A ao lda;
  Some (info, A, piv).
Definition potrf (n : Z) (A : mem K) (ao lda : Z) : option (Z * mem K) :=
  a <- rd n n A ao lda;
  let '(info, f) := l_potrf la n a in
  A <- wr n n (fun i j => if (j <=? i)%Z then f i j else a i j) A ao lda;
  Some (info, A).

(** memset to zero of n values at offset o. *)
Definition mset0 (a : mem K) (o n : Z) : option (mem K) := zfor 0 n (fun k a => st a (o + k)%Z c0) a.

(** H2P_transpose_dmat with one thread (H2Pack_utils.c:491-498) inside one array:
    an nrow x ncol block at offset so to offset d_o. *)
Definition transpose_in (nrow ncol : Z) (a : mem K) (so lds d_o ldd : Z) : option (mem K) :=
  zfor 0 ncol (fun i a => zfor 0 nrow (fun j a => v <- ld a (so + (j * lds + i))%Z; st a (d_o + (i * ldd + j))%Z v) a) a.
(** ... and between two arrays. *)
Definition transpose_to (nrow ncol : Z) (src : mem K) (so lds : Z) (a : mem K) (d_o ldd : Z) : option (mem K) :=
  zfor 0 ncol (fun i a => zfor 0 nrow (fun j a => v <- ld src (so + (j * lds + i))%Z; st a (d_o + (i * ldd + j))%Z v) a) a.

(** ** State *)

(** thread_buf[tid]: idx0, mat0, mat1, mat2. *)
Record ubuf := UBuf { ub_idx : int_vec; ub_m0 : dmat K; ub_m1 : dmat K; ub_m2 : dmat K }.
(** The arrays ULV_Ls, ULV_idx, ULV_p, ULV_Q, ULV_L, U_mid, D_mid ([None]: NULL),
    the flag nonsingular / is_SPD, HSS_logdet and the thread buffers
    (H2Pack_HSS_ULV.c:39-69, 623-651). *)
Record ulv := Ulv {
  u_Ls : mem Z; u_idx : list (option int_vec); u_p : list (option int_vec);
  u_Q : list (option (dmat K)); u_L : list (option (dmat K)); u_U : list (option (dmat K)); u_D : list (option (dmat K));
  u_ok : bool; u_logdet : K; u_tb : list ubuf }.

(** Dereferencing a pointer in an array of pointers. *)
Definition geto {A} (l : list (option A)) (i : Z) : option A := x <- getz l i; x.

(** ** Step 1: the matrices tmpU and tmpD of a node *)

(** H2Pack_HSS_ULV.c:96-103 and 679-686: leaf. *)
Definition asm_leaf (h : h2rep F K) (getD : Z -> Z -> dmat K -> option (option (dmat K))) (shift : K) (node : Z) (b : ubuf) : option ubuf :=
  U <- getz (h_U h) node;
  let tU := dm_resize (ub_m0 b) (dm_nrow U) (dm_ncol U) in
  d <- copy_matrix (dm_nrow U) (dm_ncol U) (dm_data U) 0 (dm_ld U) (dm_data tU) 0 (dm_ld tU);
  tD <- fetch getD node node (ub_m1 b);
  e <- zfor 0 (dm_nrow tD) (fun k d => madd d (k * dm_ld tD + k)%Z shift) (dm_data tD);
  Some (UBuf (ub_idx b) (dm_set_data tU d) (dm_set_data tD e) (ub_m2 b)).

(** H2Pack_HSS_ULV.c:106-116 and 689-699: offsets of the children's blocks and
    their total size. *)
Definition asm_offsets (h : h2rep F K) (Dm : list (option (dmat K))) (node nc : Z) (v : int_vec) : option (int_vec * Z) :=
  v <- iv_set_capacity v (nc + 1);
  o <- st (iv_data v) 0 0%Z;
  '(o, n) <- zfor 0 nc (fun k s => let '(o, n) := s in
      c <- ld (a_children (h_t h)) (node * h_maxchild h + k);
      Dc <- geto Dm c;
      ok <- ld o k;
      o <- st o (k + 1) (ok + dm_nrow Dc)%Z;
      Some (o, n + dm_nrow Dc)%Z) (o, 0%Z);
  Some (mkIV (iv_cap v) (iv_len v) o, n).

(** H2Pack_HSS_ULV.c:133-158 and 716-741: the off-diagonal blocks (k, l), (l, k).
    State: mat0 (tmpM), mat2 (tmpB), tmpD->data; [ldD] = tmpD->ld. *)
Definition asm_off (h : h2rep F K) (getB : Z -> Z -> dmat K -> option (option (dmat K))) (Um : list (option (dmat K))) (node : Z) (off : mem Z) (ldD k l : Z)
    (s : dmat K * dmat K * mem K) : option (dmat K * dmat K * mem K) :=
  let '(m0, m2, d) := s in
  ck <- ld (a_children (h_t h)) (node * h_maxchild h + k);
  cl <- ld (a_children (h_t h)) (node * h_maxchild h + l);
  ks <- ld off k; ks1 <- ld off (k + 1);
  ls <- ld off l; ls1 <- ld off (l + 1);
  tB <- fetch getB ck cl m2;
  Ul <- geto Um cl;
  Uk <- geto Um ck;
  let tM := dm_resize m0 (dm_nrow tB) (dm_nrow Ul) in
  e <- gemm false true (dm_nrow tM) (dm_ncol tM) (dm_ncol tB) (dm_data tB) 0 (dm_ld tB) (dm_data Ul) 0 (dm_ld Ul) false (dm_data tM) 0 (dm_ld tM);
  let tM := dm_set_data tM e in
  let okl := (ks * ldD + ls)%Z in let olk := (ls * ldD + ks)%Z in
  d <- gemm false false (dm_nrow Uk) (dm_ncol tM) (dm_nrow tM) (dm_data Uk) 0 (dm_ld Uk) (dm_data tM) 0 (dm_ld tM) false d okl ldD;
  d <- transpose_in (ks1 - ks) (ls1 - ls) d okl ldD olk ldD;
  Some (tM, tB, d).

(** H2Pack_HSS_ULV.c:117-159 and 700-742: tmpD of a non-leaf node. *)
Definition asm_D (h : h2rep F K) getB (Um Dm : list (option (dmat K))) (node nc n : Z) (off : mem Z) (b : ubuf) : option ubuf :=
  let tD := dm_resize (ub_m1 b) n n in
  d <- mset0 (dm_data tD) 0 (n * n);
  '(m0, m2, d) <- zfor 0 nc (fun k s => let '(m0, m2, d) := s in
      ck <- ld (a_children (h_t h)) (node * h_maxchild h + k);
      ks <- ld off k;
      Dk <- geto Dm ck;
      d <- copy_matrix (dm_nrow Dk) (dm_ncol Dk) (dm_data Dk) 0 (dm_ld Dk) d (ks * (dm_ld tD + 1)) (dm_ld tD);
      zfor (k + 1) nc (fun l s => asm_off h getB Um node off (dm_ld tD) k l s) (m0, m2, d)) (ub_m0 b, ub_m2 b, d);
  Some (UBuf (ub_idx b) m0 (dm_set_data tD d) m2).

(** H2Pack_HSS_ULV.c:160-186 and 743-769: tmpU of a non-leaf node at level [lev]. *)
Definition asm_U (h : h2rep F K) (Um : list (option (dmat K))) (node nc n lev : Z) (off : mem Z) (b : ubuf) : option ubuf :=
  let tU := dm_resize (ub_m0 b) n n in
  d <- mset0 (dm_data tU) 0 (n * n);
  d <- zfor 0 nc (fun k d =>
      ck <- ld (a_children (h_t h)) (node * h_maxchild h + k);
      ks <- ld off k;
      Uk <- geto Um ck;
      copy_matrix (dm_nrow Uk) (dm_ncol Uk) (dm_data Uk) 0 (dm_ld Uk) d (ks * (dm_ld tU + 1)) (dm_ld tU)) d;
  let tU := dm_set_data tU d in
  if 0 <? lev then
    U <- getz (h_U h) node;
    let tB := dm_resize (ub_m2 b) (dm_nrow tU) (dm_ncol U) in
    e <- gemm false false (dm_nrow tB) (dm_ncol tB) (dm_ncol tU) (dm_data tU) 0 (dm_ld tU) (dm_data U) 0 (dm_ld U) false (dm_data tB) 0 (dm_ld tB);
    let tB := dm_set_data tB e in
    let tU := dm_resize tU (dm_nrow tB) (dm_ncol tB) in
    d <- copy_matrix (dm_nrow tB) (dm_ncol tB) (dm_data tB) 0 (dm_ld tB) (dm_data tU) 0 (dm_ld tU);
    Some (UBuf (ub_idx b) (dm_set_data tU d) (ub_m1 b) tB)
  else Some (UBuf (ub_idx b) tU (ub_m1 b) (ub_m2 b)).

(** H2Pack_HSS_ULV.c:94-191 and 677-774: step 1 with its final assertion. *)
Definition assemble (h : h2rep F K) getB getD (shift : K) (lev node : Z) (Um Dm : list (option (dmat K))) (b : ubuf) : option ubuf :=
  nc <- ld (a_nchild (h_t h)) node;
  b <- (if nc =? 0 then asm_leaf h getD shift node b
        else
          '(v, n) <- asm_offsets h Dm node nc (ub_idx b);
          b <- asm_D h getB Um Dm node nc n (iv_data v) (UBuf v (ub_m0 b) (ub_m1 b) (ub_m2 b));
          asm_U h Um node nc n lev (iv_data v) b);
  if dm_nrow (ub_m0 b) <? dm_ncol (ub_m0 b) then None else Some b.

(** ** Step 2, common part: QR of tmpU, transformation of tmpD *)

(** H2Pack_HSS_ULV.c:200-218 and 783-801: the new ULV_Q[node], U_mid[node] and
    tmpD->data. *)
Definition ulv_qr (tU tD : dmat K) : option (dmat K * dmat K * mem K) :=
  let nrow := dm_nrow tU in let ncol := dm_ncol tU in
  let Qm := dm_init (nrow + 1) ncol in
  let Um := dm_init ncol ncol in
  q <- copy_matrix nrow ncol (dm_data tU) 0 (dm_ld tU) (dm_data Qm) 0 (dm_ld Qm);
  a <- rd nrow ncol q 0 ncol;
  let '(p, tau) := l_geqrf la nrow ncol a in
  q <- wr nrow ncol p q 0 ncol;
  q <- wr 1 ncol (fun _ j => tau j) q (nrow * ncol) ncol;
  r <- zfor 0 ncol (fun k r =>
         r <- (if 0 <? k then mset0 r (k * ncol) k else Some r);
         mcpy r (k * ncol + k) q (k * ncol + k) (ncol - k)) (dm_data Um);
  d <- ormqr true true nrow nrow ncol q 0 ncol (nrow * ncol) (dm_data tD) 0 nrow;
  d <- ormqr false false nrow nrow ncol q 0 ncol (nrow * ncol) d 0 nrow;
  Some (dm_set_data Qm q, dm_set_data Um r, d).

(** The product of the diagonal (H2Pack_HSS_ULV.c:238-239, 316-317, 825-826, 885-886). *)
Definition diag_prod (n : Z) (d : mem K) (o l : Z) : option K :=
  zfor 0 n (fun k p => v <- ld d (o + (k * l + k))%Z; Some (p * v)) c1.

(** H2Pack_HSS_ULV.c:234-236, 242-251 and 310-314, 320-329: pivots to a permutation.  The
    array holds perm (n) and then ipiv (n). *)
Definition pivots (n : Z) (piv : Z -> Z) (p : mem Z) : option (mem Z) :=
  p <- zfor 0 n (fun k p => st p (n + k) (piv k)) p;
  p <- zfor 0 n (fun k p => st p k k) p;
  zfor 0 n (fun k p =>
    i <- ld p (n + k);
    let pv := (i - 1)%Z in
    p0 <- ld p k;
    p1 <- ld p pv;
    p <- st p pv p0;
    st p k p1) p.

(** The first columns of ULV_L[node]: rows of the identity (H2Pack_HSS_ULV.c:276-281
    and 838-843). *)
Definition eye_rows (ncol nrow : Z) (L : mem K) : option (mem K) :=
  zfor 0 ncol (fun k L => L <- mset0 L (k * nrow) nrow; st L (k * nrow + k)%Z c1) L.

(** H2Pack_HSS_ULV.c:219-300: LU factorisation at a node below the root.  Result:
    ULV_p, ULV_L, D_mid, info == 0, the new logdet and mat0, tmpD->data. *)
Definition lu_inner (nrow ncol : Z) (m0 : dmat K) (d : mem K) (lg : K) : option (int_vec * dmat K * dmat K * bool * K * dmat K * mem K) :=
  let df := (nrow - ncol)%Z in
  let p := iv_init (df * 2) in
  let p := mkIV (iv_cap p) df (iv_data p) in
  let o12 := ncol in let o21 := (ncol * nrow)%Z in let o22 := (ncol * (nrow + 1))%Z in
  '(p, ok, lg, m0, d) <- (if 0 <? df then
      '(info, d, piv) <- getrf df d o22 nrow;
      pd <- diag_prod df d o22 nrow;
      let lg := lg + l_logabs la pd in
      pp <- pivots df piv (iv_data p);
      let tM := dm_resize m0 df ncol in
      e <- copy_matrix df ncol d o21 nrow (dm_data tM) 0 (dm_ld tM);
      pl <- read_cells pp 0 df;
      tM <- dm_permute_rows (dm_set_data tM e) pl;
      d <- copy_matrix df ncol (dm_data tM) 0 (dm_ld tM) d o21 nrow;
      d <- trsm true true false true df ncol d o22 nrow d o21 nrow;
      d <- trsm false false false false ncol df d o22 nrow d o12 nrow;
      Some (mkIV (iv_cap p) (iv_len p) pp, info =? 0, lg, tM, d)
    else Some (p, true, lg, m0, d));
  let L := dm_init nrow nrow in
  l <- eye_rows ncol nrow (dm_data L);
  l <- (if 0 <? df then
          l <- copy_matrix ncol df d o12 nrow l ncol nrow;
          l <- copy_matrix df ncol d o21 nrow l (ncol * nrow) nrow;
          copy_matrix df df d o22 nrow l (ncol * (nrow + 1)) nrow
        else Some l);
  let Dm := dm_init ncol ncol in
  dm <- copy_matrix ncol ncol d 0 nrow (dm_data Dm) 0 ncol;
  dm <- (if 0 <? df then gemm_neg false ncol ncol df d o12 nrow d o21 nrow dm 0 ncol else Some dm);
  Some (p, dm_set_data L l, dm_set_data Dm dm, ok, lg, m0, d).

(** H2Pack_HSS_ULV.c:301-335: LU factorisation at the root.  Result: ULV_p, ULV_L,
    info == 0, logdet. *)
Definition lu_root (nrow : Z) (d : mem K) (lg : K) : option (int_vec * dmat K * bool * K) :=
  let L := dm_init nrow nrow in
  l <- copy_matrix nrow nrow d 0 nrow (dm_data L) 0 nrow;
  let p := iv_init (nrow * 2) in
  '(info, l, piv) <- getrf nrow l 0 nrow;
  pd <- diag_prod nrow l 0 nrow;
  pp <- pivots nrow piv (iv_data p);
  Some (mkIV (iv_cap p) nrow pp, dm_set_data L l, info =? 0, lg + l_logabs la pd).

(** H2Pack_HSS_ULV.c:802-863: Cholesky factorisation at a node below the root. *)
Definition chol_inner (nrow ncol : Z) (d : mem K) (lg : K) : option (dmat K * dmat K * bool * K * mem K) :=
  let df := (nrow - ncol)%Z in
  let o21 := (ncol * nrow)%Z in let o22 := (ncol * (nrow + 1))%Z in
  '(ok, lg, d) <- (if 0 <? df then
      '(info, d) <- potrf df d o22 nrow;
      d <- zfor 0 (df - 1) (fun k d => mset0 d (o22 + (k * nrow + (k + 1))) (df - 1 - k)) d;
      pd <- diag_prod df d o22 nrow;
      let lg := lg + (c1 + c1) * l_logabs la pd in
      d <- trsm true true false false df ncol d o22 nrow d o21 nrow;
      Some (info =? 0, lg, d)
    else Some (true, lg, d));
  let L := dm_init nrow nrow in
  l <- eye_rows ncol nrow (dm_data L);
  l <- (if 0 <? df then
          l <- transpose_to df ncol d o21 nrow l ncol nrow;
          l <- zfor 0 df (fun k l => mset0 l (ncol * nrow + k * nrow) ncol) l;
          copy_matrix df df d o22 nrow l (ncol * (nrow + 1)) nrow
        else Some l);
  let Dm := dm_init ncol ncol in
  dm <- copy_matrix ncol ncol d 0 nrow (dm_data Dm) 0 ncol;
  dm <- (if 0 <? df then gemm_neg true ncol ncol df d o21 nrow d o21 nrow dm 0 ncol else Some dm);
  Some (dm_set_data L l, dm_set_data Dm dm, ok, lg, d).

(** H2Pack_HSS_ULV.c:864-889: Cholesky factorisation at the root. *)
Definition chol_root (nrow : Z) (d : mem K) (lg : K) : option (dmat K * bool * K) :=
  let L := dm_init nrow nrow in
  l <- copy_matrix nrow nrow d 0 nrow (dm_data L) 0 nrow;
  '(info, l) <- potrf nrow l 0 nrow;
  l <- zfor 0 nrow (fun k l => mset0 l (k * nrow + (k + 1)) (nrow - 1 - k)) l;
  pd <- diag_prod nrow l 0 nrow;
  Some (dm_set_data L l, info =? 0, lg + (c1 + c1) * l_logabs la pd).

(** ** Step 3: row indices of a node *)

(** H2Pack_HSS_ULV.c:339-375 and 893-929, with the assertion on the length;
    [Lrow] is ULV_L[node]->nrow. *)
Definition node_idx (h : h2rep F K) (idx : list (option int_vec)) (Dm : list (option (dmat K))) (node nc Lrow : Z) : option int_vec :=
  v <- (if nc =? 0 then
      s <- ld (h_mcl h) (node * 2);
      e <- ld (h_mcl h) (node * 2 + 1);
      let len := (e - s + 1)%Z in
      let v := iv_init len in
      d <- zfor 0 len (fun k d => st d k (s + k)%Z) (iv_data v);
      Some (mkIV (iv_cap v) len d)
    else
      n <- zfor 0 nc (fun k n => c <- ld (a_children (h_t h)) (node * h_maxchild h + k); Dc <- geto Dm c; Some (n + dm_nrow Dc)%Z) 0%Z;
      let v := iv_init n in
      '(d, n) <- zfor 0 nc (fun k s => let '(d, n) := s in
          c <- ld (a_children (h_t h)) (node * h_maxchild h + k);
          Dc <- geto Dm c;
          ic <- geto idx c;
          d <- zfor 0 (dm_nrow Dc) (fun l d => x <- ld (iv_data ic) l; st d (n + l) x) d;
          Some (d, n + dm_nrow Dc)%Z) (iv_data v, 0%Z);
      Some (mkIV (iv_cap v) n d));
  if iv_len v =? Lrow then Some v else None.

(** Step 4: the children's U_mid and D_mid are freed (H2Pack_HSS_ULV.c:377-386,
    931-940). *)
Definition free_children (h : h2rep F K) (node nc : Z) (m : list (option (dmat K))) : option (list (option (dmat K))) :=
  zfor 0 nc (fun k m => c <- ld (a_children (h_t h)) (node * h_maxchild h + k); setz m c None) m.

(** ** One node *)

(** H2Pack_HSS_ULV.c:88-387 (LU, [chol = false]) and 671-941 (Cholesky): iteration
    for [node] at level [lev] on thread [tid]. *)
Definition ulv_node (chol : bool) (h : h2rep F K) getB getD (shift : K) (lev tid node : Z) (s : ulv) : option ulv :=
  if negb (u_ok s) then Some s else
  nc <- ld (a_nchild (h_t h)) node;
  b <- getz (u_tb s) tid;
  b <- assemble h getB getD shift lev node (u_U s) (u_D s) b;
  let nrow := dm_nrow (ub_m0 b) in let ncol := dm_ncol (ub_m0 b) in
  s <- (if 0 <? lev then
      '(Qm, Um, d) <- ulv_qr (ub_m0 b) (ub_m1 b);
      '(p, L, Dm, ok, lg, m0, d) <-
        (if chol then '(L, Dm, ok, lg, d) <- chol_inner nrow ncol d (u_logdet s); Some (None, L, Dm, ok, lg, ub_m0 b, d)
         else '(p, L, Dm, ok, lg, m0, d) <- lu_inner nrow ncol (ub_m0 b) d (u_logdet s); Some (Some p, L, Dm, ok, lg, m0, d));
      Ls <- st (u_Ls s) node ncol;
      up <- setz (u_p s) node p;
      uQ <- setz (u_Q s) node (Some Qm);
      uL <- setz (u_L s) node (Some L);
      uU <- setz (u_U s) node (Some Um);
      uD <- setz (u_D s) node (Some Dm);
      tb <- setz (u_tb s) tid (UBuf (ub_idx b) m0 (dm_set_data (ub_m1 b) d) (ub_m2 b));
      Some (Ulv Ls (u_idx s) up uQ uL uU uD ok lg tb)
    else
      '(p, L, ok, lg) <-
        (if chol then '(L, ok, lg) <- chol_root nrow (dm_data (ub_m1 b)) (u_logdet s); Some (None, L, ok, lg)
         else '(p, L, ok, lg) <- lu_root nrow (dm_data (ub_m1 b)) (u_logdet s); Some (Some p, L, ok, lg));
      Ls <- st (u_Ls s) node 0%Z;
      up <- setz (u_p s) node p;
      uQ <- setz (u_Q s) node (Some (dm_init 1 1));
      uL <- setz (u_L s) node (Some L);
      tb <- setz (u_tb s) tid b;
      Some (Ulv Ls (u_idx s) up uQ uL (u_U s) (u_D s) ok lg tb));
  if negb (u_ok s) then Some s else
  L <- geto (u_L s) node;
  v <- node_idx h (u_idx s) (u_D s) node nc (dm_nrow L);
  ix <- setz (u_idx s) node (Some v);
  uU <- free_children h node nc (u_U s);
  uD <- free_children h node nc (u_D s);
  Some (Ulv (u_Ls s) ix (u_p s) (u_Q s) (u_L s) uU uD (u_ok s) (u_logdet s) (u_tb s)).

(** ** The factorisation *)

(** Iterations of one level in the order and on the threads of the schedule. *)
Definition node_sweep {St} (h : h2rep F K) (item : Z -> Z -> St -> option St) (sched : list (Z * Z)) (i : Z) (s : St) : option St :=
  run (map (fun (ev : Z * Z) s => let '(tid, j) := ev in
         node <- ld (a_level_nodes (h_t h)) (i * h_nleaf h + j); item tid node s) sched) s.

(** H2Pack_HSS_ULV.c:39-69, 623-651: fresh arrays. *)
Definition ulv_fresh (h : h2rep F K) (tb : list ubuf) : ulv :=
  let n := h_nnode h in
  Ulv (alloc n) (arr n None) (arr n None) (arr n None) (arr n None) (arr n None) (arr n None) true c0 tb.

(** H2Pack_HSS_ULV.c:16-426 H2P_HSS_ULV_LU_factorize and 601-978
    H2P_HSS_ULV_Cholesky_factorize in HSS mode: levels from max_level to 0,
    stopping when the flag is cleared (line 77, 660). *)
Definition ulv_factorize (chol : bool) (h : h2rep F K) getB getD (shift : K) (sched : Z -> list (Z * Z)) (tb : list ubuf) : option ulv :=
  zfor 0 (h_maxlevel h + 1) (fun k s =>
    let i := (h_maxlevel h - k)%Z in
    if negb (u_ok s) then Some s
    else node_sweep h (fun tid node s => ulv_node chol h getB getD shift i tid node s) (sched i) i s) (ulv_fresh h tb).

(** ** The solves *)

(** x0[k] = pmt_x[idx[k]] and pmt_x[idx[k]] = x0[k] (e.g. H2Pack_HSS_ULV.c:492, 527). *)
Definition gather_idx (v : int_vec) (px x0 : mem K) : option (mem K) :=
  zfor 0 (iv_len v) (fun k x0 => i <- ld (iv_data v) k; x <- ld px i; st x0 k x) x0.
Definition scatter_idx (v : int_vec) (x0 px : mem K) : option (mem K) :=
  zfor 0 (iv_len v) (fun k px => i <- ld (iv_data v) k; x <- ld x0 k; st px i x) px.

(** The state of a solve: pmt_x and thread_buf[]->mat0. *)
Definition svst := (mem K * list (dmat K))%type.

(** H2Pack_HSS_ULV.c:482-527: up sweep of the LU solve at a node. *)
Definition lu_up_node (u : ulv) (lev tid node : Z) (s : svst) : option svst :=
  let '(px, m0s) := s in
  idx <- geto (u_idx u) node;
  p <- geto (u_p u) node;
  Q <- geto (u_Q u) node;
  L <- geto (u_L u) node;
  is <- ld (u_Ls u) node;
  let ls := (dm_nrow L - is)%Z in
  m0 <- getz m0s tid;
  if negb (ls =? iv_len p) then None else
  let x0 := dm_resize m0 (iv_len idx + ls) 1 in
  x <- gather_idx idx px (dm_data x0);
  x <- (if 0 <? lev then ormqr true true (dm_nrow L) 1 (dm_ncol Q) (dm_data Q) 0 (dm_ncol Q) ((dm_nrow Q - 1) * dm_ncol Q) x 0 1 else Some x);
  x <- mcpy_in x (is + ls) is ls;
  x <- zfor 0 ls (fun k x => q <- ld (iv_data p) k; v <- ld x (is + ls + q); st x (is + k) v) x;
  x <- trsm true true false true ls 1 (dm_data L) (is * (dm_ld L + 1)) (dm_ld L) x is 1;
  x <- gemm_neg false is 1 ls (dm_data L) is (dm_ld L) x is 1 x 0 1;
  px <- scatter_idx idx x px;
  m0s <- setz m0s tid (dm_set_data x0 x);
  Some (px, m0s).

(** H2Pack_HSS_ULV.c:550-587: down sweep of the LU solve at a node. *)
Definition lu_down_node (u : ulv) (lev tid node : Z) (s : svst) : option svst :=
  let '(px, m0s) := s in
  idx <- geto (u_idx u) node;
  Q <- geto (u_Q u) node;
  L <- geto (u_L u) node;
  is <- ld (u_Ls u) node;
  let ls := (dm_nrow L - is)%Z in
  m0 <- getz m0s tid;
  let x0 := dm_resize m0 (iv_len idx) 1 in
  x <- gather_idx idx px (dm_data x0);
  x <- gemm_neg false ls 1 is (dm_data L) (is * dm_ld L) (dm_ld L) x 0 1 x is 1;
  x <- trsm true false false false ls 1 (dm_data L) (is * (dm_ld L + 1)) (dm_ld L) x is 1;
  x <- (if 0 <? lev then ormqr true false (dm_nrow L) 1 (dm_ncol Q) (dm_data Q) 0 (dm_ncol Q) ((dm_nrow Q - 1) * dm_ncol Q) x 0 1 else Some x);
  px <- scatter_idx idx x px;
  m0s <- setz m0s tid (dm_set_data x0 x);
  Some (px, m0s).

(** H2Pack_HSS_ULV.c:1033-1067: up sweep of the Cholesky solve below the root. *)
Definition ch_up_node (u : ulv) (tid node : Z) (s : svst) : option svst :=
  let '(px, m0s) := s in
  idx <- geto (u_idx u) node;
  Q <- geto (u_Q u) node;
  L <- geto (u_L u) node;
  is <- ld (u_Ls u) node;
  let ls := (dm_nrow L - is)%Z in
  m0 <- getz m0s tid;
  let x0 := dm_resize m0 (iv_len idx) 1 in
  x <- gather_idx idx px (dm_data x0);
  x <- ormqr true true (dm_nrow L) 1 (dm_ncol Q) (dm_data Q) 0 (dm_ncol Q) ((dm_nrow Q - 1) * dm_ncol Q) x 0 1;
  x <- trsm true true false false ls 1 (dm_data L) (is * (dm_ld L + 1)) (dm_ld L) x is 1;
  x <- gemm_neg false is 1 ls (dm_data L) is (dm_ld L) x is 1 x 0 1;
  px <- scatter_idx idx x px;
  m0s <- setz m0s tid (dm_set_data x0 x);
  Some (px, m0s).

(** H2Pack_HSS_ULV.c:1072-1083 ([trans = false]) and 1089-1100: the root. *)
Definition ch_root_node (u : ulv) (trans : bool) (node : Z) (s : svst) : option svst :=
  let '(px, m0s) := s in
  idx <- geto (u_idx u) node;
  L <- geto (u_L u) node;
  m0 <- getz m0s 0;
  let x0 := dm_resize m0 (iv_len idx) 1 in
  x <- gather_idx idx px (dm_data x0);
  x <- trsm true true trans false (dm_nrow L) 1 (dm_data L) 0 (dm_ld L) x 0 1;
  px <- scatter_idx idx x px;
  m0s <- setz m0s 0 (dm_set_data x0 x);
  Some (px, m0s).

(** H2Pack_HSS_ULV.c:1116-1148: down sweep of the Cholesky solve below the root. *)
Definition ch_down_node (u : ulv) (tid node : Z) (s : svst) : option svst :=
  let '(px, m0s) := s in
  idx <- geto (u_idx u) node;
  Q <- geto (u_Q u) node;
  L <- geto (u_L u) node;
  is <- ld (u_Ls u) node;
  let ls := (dm_nrow L - is)%Z in
  m0 <- getz m0s tid;
  let x0 := dm_resize m0 (iv_len idx) 1 in
  x <- gather_idx idx px (dm_data x0);
  x <- gemm_neg true ls 1 is (dm_data L) is (dm_ld L) x 0 1 x is 1;
  x <- trsm true true true false ls 1 (dm_data L) (is * (dm_ld L + 1)) (dm_ld L) x is 1;
  x <- ormqr true false (dm_nrow L) 1 (dm_ncol Q) (dm_data Q) 0 (dm_ncol Q) ((dm_nrow Q - 1) * dm_ncol Q) x 0 1;
  px <- scatter_idx idx x px;
  m0s <- setz m0s tid (dm_set_data x0 x);
  Some (px, m0s).

(** H2Pack_HSS_ULV.c:465-531 and 533-591: the sweeps of the LU solve. *)
Definition lu_up (h : h2rep F K) (u : ulv) (sched : Z -> list (Z * Z)) (s : svst) : option svst :=
  zfor 0 (h_maxlevel h + 1) (fun k s => let i := (h_maxlevel h - k)%Z in node_sweep h (fun tid node s => lu_up_node u i tid node s) (sched i) i s) s.
Definition lu_down (h : h2rep F K) (u : ulv) (sched : Z -> list (Z * Z)) (s : svst) : option svst :=
  zfor 0 (h_maxlevel h + 1) (fun i s => node_sweep h (fun tid node s => lu_down_node u i tid node s) (sched i) i s) s.

(** H2Pack_HSS_ULV.c:1016-1084 and 1086-1152: those of the Cholesky solve. *)
Definition ch_up (h : h2rep F K) (u : ulv) (sched : Z -> list (Z * Z)) (s : svst) : option svst :=
  s <- zfor 0 (h_maxlevel h) (fun k s => let i := (h_maxlevel h - k)%Z in node_sweep h (fun tid node s => ch_up_node u tid node s) (sched i) i s) s;
  root <- ld (a_level_nodes (h_t h)) 0;
  ch_root_node u false root s.
Definition ch_down (h : h2rep F K) (u : ulv) (sched : Z -> list (Z * Z)) (s : svst) : option svst :=
  root <- ld (a_level_nodes (h_t h)) 0;
  s <- ch_root_node u true root s;
  zfor 1 (h_maxlevel h + 1) (fun i s => node_sweep h (fun tid node s => ch_down_node u tid node s) (sched i) i s) s.

(** H2Pack_HSS_ULV.c:429-599 H2P_HSS_ULV_LU_solve and 981-1159
    H2P_HSS_ULV_Cholesky_solve: [is_hss], [u] ([None]: ULV_idx == NULL); the
    invalid calls return leaving x alone. *)
Definition ulv_solve (chol : bool) (h : h2rep F K) (is_hss : bool) (u : option ulv) (op : Z) (su sd : Z -> list (Z * Z))
    (px : mem K) (m0s : list (dmat K)) (b x : mem K) : option (mem K * list (dmat K) * mem K) :=
  if negb is_hss then Some (px, m0s, x) else
  match u with
  | None => Some (px, m0s, x)
  | Some u =>
    if (op <? 1) || (3 <? op) then Some (px, m0s, x) else
    px <- gather_vector_elements (h_kms h) (h_fwd h) b 0 px 0;
    s <- (if Z.land op 1 =? 0 then Some (px, m0s) else if chol then ch_up h u su (px, m0s) else lu_up h u su (px, m0s));
    '(px, m0s) <- (if Z.land op 2 =? 0 then Some s else if chol then ch_down h u sd s else lu_down h u sd s);
    x <- gather_vector_elements (h_kms h) (h_bwd h) px 0 x 0;
    Some (px, m0s, x)
  end.
End ULV.
