(** Model of examples/SPDHSS-H2/block_jacobi_precond.c: the block Jacobi
    preconditioner of an H2 representation.

    [kern] is the kernel, [la] gives getrf and trsm; the iterations of the two
    parallel loops run in some order, one block at a time.  Allocation (its size is
    modelled), timers and statistics are left out; sums are taken in increasing
    order. *)
From Coq Require Import ZArith List Lia Bool.
From Verif Require Import Base Mem Num CRing Model_Utils Model_Dense Model_Partition Model_Matvec Model_Build Spec_Lapack Blk Model_ULV Model_FSAI.
Import ListNotations.
Open Scope Z_scope.

Section BJ.
Context {F : num} {K : cring}.
Variable kern : list F -> list F -> Z -> Z -> K.
Variable la : lapack K.

(** The fields of struct block_jacobi_precond (block_jacobi_precond.h:6-22), apart
    from the work vectors. *)
Record bjp := BJP { bj_n : Z; bj_nblk : Z; bj_sizes : mem Z; bj_displs : mem Z; bj_ptr : mem Z; bj_inv : mem K; bj_fwd : list Z; bj_bwd : list Z }.

(** block_jacobi_precond.c:33-40: sizes and offsets of the blocks and the total
    number of cells. *)
Definition BJ_layout (n_block : Z) (D_nrow : mem Z) : option (mem Z * mem Z * mem Z * Z) :=
  displs <- st (alloc (n_block + 1)) 0 0;
  zfor 0 n_block (fun i (x : mem Z * mem Z * mem Z * Z) => let '(sizes, displs, ptr, tot) := x in
    d <- ld D_nrow i;
    sizes <- st sizes i d;
    ptr <- st ptr i tot;
    b <- ld displs i;
    displs <- st displs (i + 1) (b + d);
    Some (sizes, displs, ptr, tot + d * d)) (alloc n_block, displs, alloc n_block, 0).

(** LAPACKE_?getri(ROW_MAJOR, n, A, lda, ipiv): the inverse from the packed factors
    of getrf; modelled as the solution of P A X = P, that is U^-1 (L^-1 P). *)
Definition getri (n : Z) (A : mem K) (ao lda : Z) (piv : Z -> Z) : option (mem K) :=
  a <- rd n n A ao lda;
  wr n n (l_trsm la true false false false n n a (l_trsm la true true false true n n a (interchange (Z.to_nat n) piv delta))) A ao lda.

(** block_jacobi_precond.c:52-73: iteration [i]; an assertion that fails is an error.
    The pivots of block i live in cells [pt_s * krnl_dim, ...) of all_ipiv; only their
    bounds are modelled. *)
Definition BJ_block (h : h2rep F K) (coord : mem F) (xpt_dim : Z) (shift : K) (sizes ptr : mem Z) (i : Z) (inv : mem K) : option (mem K) :=
  node <- ld (a_height_nodes (h_t h)) i;
  pt_s <- ld (a_cluster (h_t h)) (2 * node);
  blk_size <- ld sizes i;
  off <- ld ptr i;
  if blk_size =? 0 then Some inv else
  if negb ((0 <=? pt_s * h_kdim h) && (pt_s * h_kdim h + blk_size <=? h_npoint h * h_kdim h)) then None else
  inv <- eval_D kern (BCtx xpt_dim (h_kdim h) (h_npoint h) coord [] (a_level (h_t h)) (a_cluster (h_t h)) (a_height_nodes (h_t h)) (h_nleaf h)) node node inv off;
  inv <- zfor 0 blk_size (fun j inv => madd inv (off + (j * blk_size + j)) shift) inv;
  '(info, inv, piv) <- getrf la blk_size inv off blk_size;
  if negb (info =? 0) then None else
  getri blk_size inv off blk_size piv.

(** block_jacobi_precond.c:11-109 H2P_build_block_jacobi_precond; [coord] is the
    point set of the handle, [ord] the order of the blocks. *)
Definition BJ_build (h : h2rep F K) (coord : mem F) (xpt_dim : Z) (shift : K) (ord : list Z) : option bjp :=
  '(sizes, displs, ptr, tot) <- BJ_layout (h_nleaf h) (h_Dnrow h);
  inv <- in_order ord (BJ_block h coord xpt_dim shift sizes ptr) (alloc tot);
  Some (BJP (h_kms h) (h_nleaf h) sizes displs ptr inv (h_fwd h) (h_bwd h)).

(** block_jacobi_precond.c:131-144: iteration [i]. *)
Definition BJ_apply_block (p : bjp) (pb : mem K) (i : Z) (px : mem K) : option (mem K) :=
  size <- ld (bj_sizes p) i;
  spos <- ld (bj_displs p) i;
  off <- ld (bj_ptr p) i;
  gemv_n size size (bj_inv p) off size (fun c => ld pb (spos + c)) false px spos.

(** block_jacobi_precond.c:112-149 block_jacobi_precond_apply: x and the work
    vectors pmt_b, pmt_x of the object. *)
Definition BJ_apply (p : bjp) (ord : list Z) (b x pb px : mem K) : option (mem K * mem K * mem K) :=
  pb <- gather_vector_elements (bj_n p) (bj_fwd p) b 0 pb 0;
  px <- in_order ord (BJ_apply_block p pb) px;
  x <- gather_vector_elements (bj_n p) (bj_bwd p) px 0 x 0;
  Some (x, pb, px).
End BJ.
Arguments bjp : clear implicits.
