(** Model of the CSRPlus matrix of the examples (examples/SPDHSS-H2/CSRPlus.c:113-361):
    partition_block_equal, calc_lower_bound, CSRP_partition_multithread,
    CSRP_optimize_NUMA, CSRP_SpMV.
    The six arrays describing the blocks (nnz_spos, nnz_epos, first_row, last_row,
    fr_intact, lr_intact) are one array of records; the arrays of the matrix and the
    freed ones are immutable lists.  Integers do not overflow; sums are taken in
    increasing order.  A parallel loop runs its iterations one at a time, in any order.
    [None]: a cell outside its array or not initialised, or a division by zero. *)
From Coq Require Import ZArith List Lia Bool.
From Verif Require Import Base Mem CRing Model_CSR Model_FSAI.
Import ListNotations.
Open Scope Z_scope.

(** CSRPlus.h: the block descriptions of CSRP_mat_s. *)
Record csrp_blk := mkBlk { b_spos : Z; b_epos : Z; b_first : Z; b_last : Z; b_fri : Z; b_lri : Z }.

(** CSRPlus.c:113-123 partition_block_equal. *)
Definition block_displs (len nblk : Z) : option (mem Z) :=
  if nblk =? 0 then None else
  let bs0 := Z.quot len nblk in
  let rem := Z.rem len nblk in
  let bs1 := if 0 <? rem then bs0 + 1 else bs0 in
  d <- st (alloc (nblk + 1)) 0 0;
  d <- zfor 0 rem (fun i d => v <- ld d i; st d (i + 1) (v + bs1)) d;
  zfor rem nblk (fun i d => v <- ld d i; st d (i + 1) (v + bs0)) d.

(** CSRPlus.c:125-135 calc_lower_bound: the while loop ([fuel] bounds its steps). *)
Fixpoint lower_bound (fuel : nat) (a : list Z) (x l h : Z) : option Z :=
  if l <? h then
    match fuel with
    | O => None
    | S fuel =>
      let mid := l + Z.quot (h - l) 2 in
      v <- getz a mid;
      if x <=? v then lower_bound fuel a x l mid else lower_bound fuel a x (mid + 1) h
    end
  else Some l.

(** CSRPlus.c:178: while (row_ptr[e] == row_ptr[e + 1]) e++. *)
Fixpoint skip_empty (fuel : nat) (a : list Z) (e : Z) : option Z :=
  v <- getz a e; w <- getz a (e + 1);
  if v =? w then match fuel with O => None | S fuel => skip_empty fuel a (e + 1) end else Some e.

(** CSRPlus.c:169-196: the description of one block. *)
Definition part_block (nrow : Z) (rp : list Z) (d : mem Z) (iblk : Z) : option csrp_blk :=
  s <- ld d iblk;
  e <- (v <- ld d (iblk + 1); Some (v - 1));
  fr <- lower_bound (Z.to_nat (nrow + 1)) rp s 0 (nrow + 1);
  lr <- lower_bound (Z.to_nat (nrow + 1)) rp e 0 (nrow + 1);
  fr <- (v <- getz rp fr; Some (if s <? v then fr - 1 else fr));
  lr <- (v <- getz rp lr; Some (if e <? v then lr - 1 else lr));
  lr <- skip_empty (Z.to_nat nrow) rp lr;
  if 1 <=? lr - fr then
    v <- getz rp fr; w <- getz rp (lr + 1);
    Some (mkBlk s e fr lr (if s =? v then 1 else 0) (if e =? w - 1 then 1 else 0))
  else Some (mkBlk s e fr lr 0 (-1)).

(** CSRPlus.c:139-203 CSRP_partition_multithread. *)
Definition csrp_partition (nrow nnz : Z) (rp : list Z) (nblk : Z) : option (mem csrp_blk) :=
  d <- block_displs nnz nblk;
  bs <- zfor 0 nblk (fun i bs => b <- part_block nrow rp d i; st bs i b) (alloc nblk);
  b <- ld bs (nblk - 1);
  e <- getz rp nrow;
  st bs (nblk - 1) (mkBlk (b_spos b) (e - 1) (b_first b) (nrow - 1) (b_fri b) (b_lri b)).

(** CSRPlus.c:226-236: the copy of col[] (and, in the same way, of val[]) block by
    block, in the order [ord], into a new array. *)
Definition numa_copy {A} (ord : list Z) (nnz : Z) (bs : mem csrp_blk) (src : list A) : option (mem A) :=
  in_order ord (fun i dst => b <- ld bs i;
    zfor (b_spos b) (b_epos b + 1) (fun k dst => v <- getz src k; st dst k v) dst) (alloc nnz).

Section SpMV.
Context {K : cring}.
Variables (rp cols : list Z) (vals : list K) (x : mem K).

(** CSRPlus.c:248-258 CSR_SpMV_row_seg; [s] is the offset of col and val. *)
Definition row_seg (s len : Z) : option K :=
  zfor 0 len (fun i res => v <- getz vals (s + i); c <- getz cols (s + i); w <- ld x c; Some (cadd res (cmul v w))) c0.

(** CSRPlus.c:260-274 CSR_SpMV_row_block. *)
Definition row_block (srow erow : Z) (y : mem K) : option (mem K) :=
  zfor srow erow (fun i y =>
    lo <- getz rp i; hi <- getz rp (i + 1);
    res <- zfor lo hi (fun t res => v <- getz vals t; c <- getz cols t; w <- ld x c; Some (cadd res (cmul v w))) c0;
    st y i res) y.

(** CSRPlus.c:276-334 CSRP_SpMV_block: y, fr_res and lr_res. *)
Definition spmv_block (bs : mem csrp_blk) (iblk : Z) (z : mem K * mem K * mem K) : option (mem K * mem K * mem K) :=
  let '(y, fr, lr) := z in
  b <- ld bs iblk;
  if b_first b =? b_last b then
    r <- row_seg (b_spos b) (b_epos b - b_spos b + 1);
    fr <- st fr iblk r; lr <- st lr iblk c0;
    y <- st y (b_first b) c0; Some (y, fr, lr)
  else
    '(y, fr, fi) <- (if b_fri b =? 0 then
        e <- getz rp (b_first b + 1);
        r <- row_seg (b_spos b) (e - b_spos b);
        fr <- st fr iblk r; y <- st y (b_first b) c0; Some (y, fr, b_first b + 1)
      else Some (y, fr, b_first b));
    '(y, lr, li) <- (if b_lri b =? 0 then
        s <- getz rp (b_last b);
        r <- row_seg s (b_epos b - s + 1);
        lr <- st lr iblk r; y <- st y (b_last b) c0; Some (y, lr, b_last b - 1)
      else Some (y, lr, b_last b));
    y <- row_block fi (li + 1) y; Some (y, fr, lr).

(** CSRPlus.c:337-361 CSRP_SpMV: the parallel loop in the order [ord], then the
    partial rows one after the other. *)
Definition csrp_spmv (ord : list Z) (nblk : Z) (bs : mem csrp_blk) (y fr lr : mem K) : option (mem K * mem K * mem K) :=
  '(y, fr, lr) <- in_order ord (spmv_block bs) (y, fr, lr);
  y <- zfor 0 nblk (fun i y =>
    b <- ld bs i;
    y <- (if b_fri b =? 0 then r <- ld fr i; v <- ld y (b_first b); st y (b_first b) (cadd v r) else Some y);
    (if b_lri b =? 0 then r <- ld lr i; v <- ld y (b_last b); st y (b_last b) (cadd v r) else Some y)) y;
  Some (y, fr, lr).
End SpMV.

(** CSRPlus.c:17-36, 38-92 CSRP_init_with_COO_mat: the statements on row_ptr, col and
    val and the recursive sort are those of H2P_int_COO_to_CSR and
    H2P_qsort_int_key_val ([coo_to_csr]), on newly allocated arrays and with double
    values; [ord] is the order in which the rows are sorted. *)
Definition csrp_init {A} (nrow nnz : Z) (row col : list Z) (val : list A) (ord : list Z) : option (mem Z * mem Z * mem A) :=
  coo_to_csr nrow nnz row col val (alloc (nrow + 1)) (alloc nnz) (alloc nnz) ord.
