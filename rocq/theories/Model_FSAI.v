(** Model of the FSAI part of src/AFN_precond.c (lines 178-738): key-value sorting
    and selection, COO to CSR, the exact neighbour search, the construction of
    the sparse factor G and of G^T, and the application of G^T G.

    Coordinates are an arbitrary [num]; matrix entries are an arbitrary
    commutative ring [K] with LAPACK/TRSM routines of a record [lapack] (contract:
    Spec_Lapack.v) and a partial function [rsq] for 1.0 / DSQRT(x).  Every array
    access is checked ([None]: outside the array, an uninitialised cell, or a
    failed ASSERT_PRINTF).  malloc does not fail.

    OpenMP: the iterations of a parallel loop run in an arbitrary order [ord], one
    at a time (they touch disjoint cells).  The scratch arrays of a thread are
    fresh and uninitialised for every iteration, so no iteration can read what an
    earlier one left.  Timers are left out. *)
From Coq Require Import ZArith QArith List Lia Bool Permutation.
From Verif Require Import Base Mem Num CRing Conc Model_Utils Model_Dense Model_CSR Model_Partition Model_Matvec Model_Build Model_Matmul Spec_Lapack Blk Model_ULV.
Import ListNotations.
Open Scope Z_scope.

(** A loop whose iterations run in the order [ord]. *)
Fixpoint in_order {S} (ord : list Z) (body : Z -> S -> option S) (s : S) : option S :=
  match ord with [] => Some s | i :: ord => s <- body i s; in_order ord body s end.

(** ** Sorting *)
Section Sort.
Context {A B : Type}.
Variable lt : A -> A -> bool.

(** AFN_precond.c:181-185 swap_int_DTYPE_pair. *)
Definition swap_pair {C D} (a : mem C) (b : mem D) (i j : Z) : option (mem C * mem D) :=
  a <- (x <- ld a i; y <- ld a j; a <- st a i y; st a j x);
  b <- (x <- ld b i; y <- ld b j; b <- st b i y; st b j x);
  Some (a, b).

(** AFN_precond.c:194, 213  while (key[i] < mid_key) i++; *)
Fixpoint kv_up (fuel : nat) (key : mem A) (i : Z) (mid : A) : option Z :=
  match fuel with
  | O => None
  | S f => k <- ld key i; if lt k mid then kv_up f key (i + 1) mid else Some i
  end.
(** AFN_precond.c:195, 214  while (key[j] > mid_key) j--; *)
Fixpoint kv_down (fuel : nat) (key : mem A) (j : Z) (mid : A) : option Z :=
  match fuel with
  | O => None
  | S f => k <- ld key j; if lt mid k then kv_down f key (j - 1) mid else Some j
  end.

(** AFN_precond.c:192-201 and 211-220: the partition loop; final key, val, i, j. *)
Fixpoint kv_part (fuel : nat) (key : mem A) (val : mem B) (i j : Z) (mid : A) : option (mem A * mem B * Z * Z) :=
  match fuel with
  | O => None
  | S f =>
    if i <=? j then
      i <- kv_up (S (length key)) key i mid;
      j <- kv_down (S (length key)) key j mid;
      if i <=? j then
        '(key, val) <- swap_pair key val i j;
        kv_part f key val (i + 1) (j - 1) mid
      else kv_part f key val i j mid
    else Some (key, val, i, j)
  end.

(** AFN_precond.c:188-204 Qsort_int_DTYPE_key_val. *)
Fixpoint Qsort_key_val (fuel : nat) (key : mem A) (val : mem B) (l r : Z) : option (mem A * mem B) :=
  match fuel with
  | O => None
  | S f =>
    mid <- ld key (Z.quot (l + r) 2);
    '(key, val, i, j) <- kv_part (Z.to_nat (r - l + 3)) key val l r mid;
    '(key, val) <- (if i <? r then Qsort_key_val f key val i r else Some (key, val));
    (if l <? j then Qsort_key_val f key val l j else Some (key, val))
  end.

(** AFN_precond.c:207-223 Qpart_DTYPE_int_key_val. *)
Fixpoint Qpart_key_val (fuel : nat) (key : mem A) (val : mem B) (l r k : Z) : option (mem A * mem B) :=
  match fuel with
  | O => None
  | S f =>
    mid <- ld key (Z.quot (l + r) 2);
    '(key, val, i, j) <- kv_part (Z.to_nat (r - l + 3)) key val l r mid;
    '(key, val) <- (if l <? j then Qpart_key_val f key val l j k else Some (key, val));
    (if (i <? r) && (i <? k) then Qpart_key_val f key val i r k else Some (key, val))
  end.
End Sort.

(** AFN_precond.c:226-269 COO2CSR: row_ptr, col_idx, csr_val; the rows are sorted
    in the order [ord]. *)
Definition COO2CSR {A} (nrow nnz : Z) (row col : mem Z) (val : mem A) (ord : list Z) : option (mem Z * mem Z * mem A) :=
  rp <- zfor 0 (nrow + 1) (fun i p => st p i 0) (alloc (nrow + 1));
  rp <- zfor 0 nnz (fun i p => r <- ld row i; c <- ld p (r + 1); st p (r + 1) (c + 1)) rp;
  rp <- zfor 2 (nrow + 1) (fun i p => a <- ld p i; b <- ld p (i - 1); st p i (a + b)) rp;
  '(rp, ci, va) <- zfor 0 nnz (fun i (s : mem Z * mem Z * mem A) => let '(p, ci, va) := s in
      r <- ld row i;
      idx <- ld p r;
      c <- ld col i; ci <- st ci idx c;
      v <- ld val i; va <- st va idx v;
      p <- st p r (idx + 1);
      Some (p, ci, va)) (rp, alloc nnz, alloc nnz);
  rp <- zfor 0 nrow (fun k p => let i := nrow - k in a <- ld p (i - 1); st p i a) rp;
  rp <- st rp 0 0;
  '(ci, va) <- in_order ord (fun i (s : mem Z * mem A) => let '(ci, va) := s in
      a <- ld rp i; b <- ld rp (i + 1);
      Qsort_key_val Z.ltb (Z.to_nat (b - 1 - a + 2)) ci va a (b - 1)) (ci, va);
  Some (rp, ci, va).

Section FSAI.
Context {F : num} {K : cring}.
Local Open Scope ring_K.

(** ** Neighbours *)

(** H2Pack_utils.c:69-94 H2P_calc_pdist2_OMP (one thread), the point sets at
    offsets o0, o1. *)
Definition calc_pdist2 (dim : Z) (cs0 : mem F) (o0 ld0 n0 : Z) (cs1 : mem F) (o1 ld1 n1 : Z) (dist2 : mem F) (ldd : Z) : option (mem F) :=
  zfor 0 n0 (fun i d =>
    d <- zfor 0 n1 (fun j d => st d (i * ldd + j)%Z (nlit 0%Q)) d;
    zfor 0 dim (fun k d =>
      a <- ld cs0 (o0 + i + k * ld0)%Z;
      zfor 0 n1 (fun j d =>
        b <- ld cs1 (o1 + k * ld1 + j)%Z;
        let diff := nsub a b in
        v <- ld d (i * ldd + j)%Z;
        st d (i * ldd + j)%Z (nadd v (nmul diff diff))) d) d) dist2.

(** AFN_precond.c:297-315: the iteration for point i of the search; nn_cnt is the
    array displs from index 1 on (line 588).  The points are at offset [co] of the
    array (coord2 = coord_perm + n1, line 1165). *)
Definition exact_KNN_row (fsai_npt n dim : Z) (coord : mem F) (co ldc : Z) (i : Z) (s : mem Z * mem Z) : option (mem Z * mem Z) :=
  let '(nn_idx, displs) := s in
  if (i <? fsai_npt)%Z then
    let nn_cnt_i := (i + 1)%Z in
    nn_idx <- zfor 0 nn_cnt_i (fun j m => st m (i * fsai_npt + j)%Z j) nn_idx;
    displs <- st displs (1 + i)%Z nn_cnt_i;
    Some (nn_idx, displs)
  else
    let nn_cnt_i := fsai_npt in
    idx <- zfor 0 i (fun j m => st m j j) (alloc n);
    dist2 <- calc_pdist2 dim coord (co + i)%Z ldc 1 coord co ldc i (alloc n) n;
    '(dist2, idx) <- Qpart_key_val nlt (Z.to_nat (i + 1)) dist2 idx 0 (i - 1) fsai_npt;
    nn_idx <- mcpy nn_idx (i * fsai_npt)%Z idx 0 fsai_npt;
    nn_idx <- st nn_idx (i * fsai_npt + (nn_cnt_i - 1))%Z i;
    displs <- st displs (1 + i)%Z nn_cnt_i;
    Some (nn_idx, displs).

(** AFN_precond.c:281-319 FSAI_exact_KNN. *)
Definition FSAI_exact_KNN (fsai_npt n dim : Z) (coord : mem F) (co ldc : Z) (nn_idx displs : mem Z) (ord : list Z) : option (mem Z * mem Z) :=
  displs <- zfor 0 n (fun i d => st d (1 + i)%Z 0%Z) displs;
  in_order ord (exact_KNN_row fsai_npt n dim coord co ldc) (nn_idx, displs).

(** ** The factor *)
Variable kern : list F -> list F -> Z -> Z -> K.
Variable la : lapack K.
Variable rsq : K -> option K.

(** H2Pack_utils.c:32-44 H2P_gather_matrix_columns, the source at offset [so] and
    the column indices at offset [io]. *)
Definition gather_columns (nrow ncol : Z) (src : mem F) (so lds : Z) (idx : mem Z) (io : Z) (dst : mem F) (ldd : Z) : option (mem F) :=
  zfor 0 nrow (fun irow d => zfor 0 ncol (fun icol d =>
    c <- ld idx (io + icol)%Z; v <- ld src (so + lds * irow + c)%Z; st d (ldd * irow + icol)%Z v) d) dst.

(** cblas_?syrk(RowMajor, Lower, NoTrans, n, k, -1, A, k, 1, C, n): only the lower
    triangle of C is changed. *)
Definition syrk_lower_neg (n k : Z) (A : mem K) (C : mem K) : option (mem K) :=
  a <- rd n k A 0 k;
  c <- rd n n C 0 n;
  wr n n (fun i j => if (j <=? i)%Z then c i j - rsum 0 k (fun l => a i l * a j l) else c i j) C 0 n.

(** LAPACKE_?potrf(COL_MAJOR, 'U', n, A, n), which is potrf(ROW_MAJOR, 'L') on the
    same array: the matrix is the symmetric one given by the lower triangle; the
    strict upper triangle is left alone. *)
Definition potrf_low (n : Z) (A : mem K) : option (Z * mem K) :=
  a <- rd n n A 0 n;
  let '(info, f) := l_potrf la n (fun i j => if (j <=? i)%Z then a i j else a j i) in
  A <- wr n n (fun i j => if (j <=? i)%Z then f i j else a i j) A 0 n;
  Some (info, A).

(** LAPACKE_?potrs(COL_MAJOR, 'U', n, 1, A, n, b, n) at offset bo of b:
    the two triangular solves L y = b, L^T x = y. *)
Definition potrs (n : Z) (A : mem K) (b : mem K) (bo : Z) : option (mem K) :=
  b <- trsm la true true false false n 1 A 0 n b bo 1;
  trsm la true true true false n 1 A 0 n b bo 1.

(** AFN_precond.c:607-657: row i of the factor, in COO form; nn_idx, displs are
    the neighbours and their numbers, P the n-by-n1 low rank basis. *)
Definition FSAI_row (fsai_npt dim : Z) (coord : mem F) (co ldc n1 : Z) (P : mem K) (mu : K) (nn_idx displs : mem Z)
    (i : Z) (s : mem Z * mem Z * mem K) : option (mem Z * mem Z * mem K) :=
  let '(row, col, val) := s in
  nn_cnt_i <- ld displs (i + 1);
  let j_start := (i * fsai_npt)%Z in
  '(row, col) <- zfor j_start (j_start + nn_cnt_i) (fun j (s : mem Z * mem Z) => let '(row, col) := s in
      row <- st row j i;
      c <- ld nn_idx (j_start + (j - j_start))%Z;
      col <- st col j c;
      Some (row, col)) (row, col);
  nn_coord <- gather_columns dim nn_cnt_i coord co ldc nn_idx j_start (alloc (fsai_npt * dim)) nn_cnt_i;
  tmpK <- krnl_eval kern dim 1 nn_coord 0 nn_cnt_i nn_cnt_i nn_coord 0 nn_cnt_i nn_cnt_i (alloc (fsai_npt * fsai_npt)) 0 nn_cnt_i;
  tmpK <- zfor 0 nn_cnt_i (fun j d => madd d (j * nn_cnt_i + j)%Z mu) tmpK;
  tmpK <- (if (0 <? n1)%Z then
      Pnn <- zfor 0 nn_cnt_i (fun j0 d => r <- ld nn_idx (j_start + j0)%Z; mcpy d (j0 * n1)%Z P (r * n1)%Z n1) (alloc (fsai_npt * n1));
      syrk_lower_neg nn_cnt_i n1 Pnn tmpK
    else Some tmpK);
  val <- zfor 0 nn_cnt_i (fun j d => st d (j_start + j)%Z c0) val;
  val <- st val (j_start + (nn_cnt_i - 1))%Z c1;
  '(info, tmpK) <- potrf_low nn_cnt_i tmpK;
  if negb (info =? 0)%Z then None else
  val <- potrs nn_cnt_i tmpK val j_start;
  t <- ld val (j_start + (nn_cnt_i - 1))%Z;
  scale_factor <- rsq t;
  val <- zfor 0 nn_cnt_i (fun j d => v <- ld d (j_start + j)%Z; st d (j_start + j)%Z (v * scale_factor)) val;
  Some (row, col, val).

(** The CSR arrays of G and G^T. *)
Record fsai := Fsai {
  G_rowptr : mem Z; G_colidx : mem Z; G_val : mem K;
  GT_rowptr : mem Z; GT_colidx : mem Z; GT_val : mem K }.

(** AFN_precond.c:666-697: prefix sums, compaction, conversion to CSR. *)
Definition FSAI_csr (fsai_npt n : Z) (row col : mem Z) (val : mem K) (displs : mem Z) (ordc ordG ordGT : list Z) : option fsai :=
  displs <- zfor 1 (n + 1) (fun i d => a <- ld d i; b <- ld d (i - 1)%Z; st d i (a + b)%Z) displs;
  nnz <- ld displs n;
  '(row1, col1, val1) <- in_order ordc (fun i (s : mem Z * mem Z * mem K) => let '(row1, col1, val1) := s in
      a <- ld displs i; b <- ld displs (i + 1)%Z;
      let nnz_i := (b - a)%Z in
      row1 <- mcpy row1 a row (i * fsai_npt)%Z nnz_i;
      col1 <- mcpy col1 a col (i * fsai_npt)%Z nnz_i;
      val1 <- mcpy val1 a val (i * fsai_npt)%Z nnz_i;
      Some (row1, col1, val1)) (alloc nnz, alloc nnz, alloc nnz);
  '(rp, ci, va) <- COO2CSR n nnz row1 col1 val1 ordG;
  '(rpt, cit, vat) <- COO2CSR n nnz col1 row1 val1 ordGT;
  Some (Fsai rp ci va rpt cit vat).

(** The orders in which the parallel loops run: neighbour search, rows,
    compaction, row sorts of G and G^T. *)
Record fsai_ord := FOrd { fo_knn : list Z; fo_row : list Z; fo_cpy : list Z; fo_G : list Z; fo_GT : list Z }.

(** AFN_precond.c:591-697: the rows and the CSR arrays, for neighbours found by either search. *)
Definition FSAI_factor (fsai_npt n dim : Z) (coord : mem F) (co ldc n1 : Z) (P : mem K) (mu : K) (nn_idx displs : mem Z) (o : fsai_ord) : option fsai :=
  '(row, col, val) <- in_order (fo_row o) (FSAI_row fsai_npt dim coord co ldc n1 P mu nn_idx displs)
                        (alloc (n * fsai_npt), alloc (n * fsai_npt), alloc (n * fsai_npt));
  FSAI_csr fsai_npt n row col val displs (fo_cpy o) (fo_G o) (fo_GT o).

(** AFN_precond.c:553-697 FSAI_precond_build_ with h2mat = NULL (exact search). *)
Definition FSAI_precond_build (fsai_npt n dim : Z) (coord : mem F) (co ldc n1 : Z) (P : mem K) (mu : K) (o : fsai_ord) : option fsai :=
  displs <- st (alloc (n + 1)) 0 0%Z;
  '(nn_idx, displs) <- FSAI_exact_KNN fsai_npt n dim coord co ldc (alloc (n * fsai_npt)) displs (fo_knn o);
  FSAI_factor fsai_npt n dim coord co ldc n1 P mu nn_idx displs o.

(** ** Application *)

(** AFN_precond.c:700-717 FSAI_CSR_SpMV, x and y at offsets xo, yo. *)
Definition FSAI_CSR_SpMV (nrow : Z) (row_ptr col_idx : mem Z) (val : mem K) (x : mem K) (xo : Z) (y : mem K) (yo : Z) : option (mem K) :=
  zfor 0 nrow (fun i y =>
    a <- ld row_ptr i; b <- ld row_ptr (i + 1);
    res <- zfor a b (fun j res => v <- ld val j; c <- ld col_idx j; xc <- ld x (xo + c)%Z; Some (res + v * xc)) c0;
    st y (yo + i)%Z res) y.

(** AFN_precond.c:728-736 FSAI_precond_apply_: y and the work buffer t. *)
Definition FSAI_precond_apply (g : fsai) (n : Z) (x : mem K) (xo : Z) (y : mem K) (yo : Z) (t : mem K) (t_o : Z) : option (mem K * mem K) :=
  t <- FSAI_CSR_SpMV n (G_rowptr g) (G_colidx g) (G_val g) x xo t t_o;
  y <- FSAI_CSR_SpMV n (GT_rowptr g) (GT_colidx g) (GT_val g) t t_o y yo;
  Some (y, t).
End FSAI.
Arguments Fsai {K}. Arguments fsai K : clear implicits.
