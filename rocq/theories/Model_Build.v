(** Model of src/H2Pack_build.c from line 646 on (metadata and contents of the B
    and D blocks, permutation indices; H2 mode, is_HSS == 0), and of the block
    lookup in src/H2Pack_utils.c.  size_t and int values are unbounded; timers
    and statistics are left out.  Coordinates are an arbitrary [num], kernel
    values an arbitrary commutative ring. *)
From Coq Require Import ZArith List Lia Bool Permutation.
From Verif Require Import Base Mem Num CRing Conc Model_Utils Model_Dense Model_CSR Model_Partition Model_Pairs Model_Matvec.
Import ListNotations.
Open Scope Z_scope.

(** All elements present. *)
Fixpoint all_some {A} (l : list (option A)) : option (list A) :=
  match l with
  | [] => Some []
  | o :: l => x <- o; xs <- all_some l; Some (x :: xs)
  end.
(** The values in cells lo .. lo+n-1, as the callee will read them. *)
Definition read_cells {A} (m : mem A) (lo n : Z) : option (list A) := all_some (map (ld m) (zrange lo (lo + n))).

Definition bump (m : mem Z) (i : Z) : option (mem Z) := c <- ld m i; st m i (c + 1).

(** Metadata of a family of blocks: sizes, offsets, total size, blocks of work,
    the pair-to-index matrix (row pointers, columns, values). *)
Record bmeta := BMeta {
  bm_nrow : mem Z; bm_ncol : mem Z; bm_ptr : mem Z; bm_total : Z;
  bm_rowptr : mem Z; bm_colidx : mem Z; bm_val : mem Z
}.

(** H2Pack_build.c:726-727, 980-982: prefix sums of the block sizes. *)
Definition prefix_sums (n : Z) (ptr : mem Z) : option (mem Z) :=
  zfor 1 (n + 1) (fun i p => a <- ld p i; b <- ld p (i - 1); st p i (a + b)) ptr.

(** H2Pack_build.c:756-767, 1008-1019: the pair-to-index matrix.  The arrays
    {B,D}_pair_{i,j,v} are filled from the front; they are a list here (of at
    most the allocated [cap] entries). *)
Definition pair_index (n_node cap : Z) (ps : list (Z * Z * Z)) (ord : list Z) : option (mem Z * mem Z * mem Z) :=
  if cap <? zlen ps then None else
  coo_to_csr n_node (zlen ps) (map (fun '(i, _, _) => i) ps) (map (fun '(_, j, _) => j) ps) (map snd ps)
    (alloc (n_node + 1)) (alloc cap) (alloc cap) ord.

(** ** H2Pack_build.c:652-782 H2P_generate_B_metadata *)

(** State of the loop 705-750: B_nrow, B_ncol, B_ptr, node_n_r_adm,
    B_total_size, the pair list. *)
Record bst := BSt { b_nrow : mem Z; b_ncol : mem Z; b_ptr : mem Z; b_nr : mem Z; b_tot : Z; b_ps : list (Z * Z * Z) }.

(** H2Pack_build.c:713-733: points on both sides of the pair. *)
Definition B_npts (level cluster : mem Z) (J : list int_vec) (n0 n1 : Z) : option (Z * Z) :=
  l0 <- ld level n0;
  l1 <- ld level n1;
  if l0 =? l1 then
    j0 <- getz J n0; j1 <- getz J n1; Some (iv_len j0, iv_len j1)
  else if l1 <? l0 then
    s1 <- ld cluster (2 * n1); e1 <- ld cluster (2 * n1 + 1); j0 <- getz J n0; Some (iv_len j0, e1 - s1 + 1)
  else
    s0 <- ld cluster (2 * n0); e0 <- ld cluster (2 * n0 + 1); j1 <- getz J n1; Some (e0 - s0 + 1, iv_len j1).

(** H2Pack_build.c:705-750: iteration [i]. *)
Definition B_item (kdim : Z) (ewald : bool) (level cluster : mem Z) (J : list int_vec) (pairs : list (Z * Z)) (i : Z) (s : bst) : option bst :=
  '(n0, n1) <- getz pairs i;
  nr <- bump (b_nr s) n0;
  nr <- (if ewald then Some nr else bump nr n1);
  '(npt0, npt1) <- B_npts level cluster J n0 n1;
  nrow <- st (b_nrow s) i (npt0 * kdim);
  ncol <- st (b_ncol s) i (npt1 * kdim);
  let size := (npt0 * kdim) * (npt1 * kdim) in
  ptr <- st (b_ptr s) (i + 1) size;
  let ps := b_ps s ++ [(n0, n1, i + 1)] in
  Some (BSt nrow ncol ptr nr (b_tot s + size) (if ewald then ps else ps ++ [(n1, n0, - (i + 1))])).

(** [ntask] is BD_ntask_thread; [ord] the order in which the parallel loop of
    H2P_int_COO_to_CSR sorts the rows. *)
Definition gen_B_metadata (kdim n_node n_thread ntask : Z) (ewald : bool) (level cluster : mem Z) (J : list int_vec)
    (pairs : list (Z * Z)) (ord : list Z) (blk : int_vec) : option (bmeta * mem Z * int_vec) :=
  let n := zlen pairs in
  ptr <- st (alloc (n + 1)) 0 0;
  nr <- zfor 0 n_node (fun i m => st m i 0) (alloc n_node);
  s <- zfor 0 n (B_item kdim ewald level cluster J pairs) (BSt (alloc n) (alloc n) ptr nr 0 []);
  sizes <- read_cells (b_ptr s) 1 n;
  blk <- partition_workload n sizes (b_tot s) (n_thread * ntask) blk;
  ptr <- prefix_sums n (b_ptr s);
  '(rp, ci, va) <- pair_index n_node (n * 2) (b_ps s) ord;
  Some (BMeta (b_nrow s) (b_ncol s) ptr (b_tot s) rp ci va, b_nr s, blk).

(** ** H2Pack_build.c:896-1027 H2P_generate_D_metadata *)

(** State of the two loops: D_nrow, D_ncol, D_ptr, D{0,1}_total_size, the pair
    list. *)
Record dst := DSt { d_nrow : mem Z; d_ncol : mem Z; d_ptr : mem Z; d_tot : Z; d_ps : list (Z * Z * Z) }.

(** H2Pack_build.c:945-966: iteration [i] over the leaves. *)
Definition D_leaf_item (kdim : Z) (leaves cluster : mem Z) (i : Z) (s : dst) : option dst :=
  node <- ld leaves i;
  ps <- ld cluster (2 * node);
  pe <- ld cluster (2 * node + 1);
  let npt := pe - ps + 1 in
  nrow <- st (d_nrow s) i (npt * kdim);
  ncol <- st (d_ncol s) i (npt * kdim);
  let size := (npt * kdim) * (npt * kdim) in
  ptr <- st (d_ptr s) (i + 1) size;
  Some (DSt nrow ncol ptr (d_tot s + size) (d_ps s ++ [(node, node, i + 1)])).

(** H2Pack_build.c:968-1000: iteration [i] over the inadmissible pairs. *)
Definition D_pair_item (kdim n_leaf : Z) (ewald : bool) (cluster : mem Z) (pairs : list (Z * Z)) (i : Z) (s : dst) : option dst :=
  let ii := i + n_leaf in
  '(n0, n1) <- getz pairs i;
  s0 <- ld cluster (2 * n0);
  s1 <- ld cluster (2 * n1);
  e0 <- ld cluster (2 * n0 + 1);
  e1 <- ld cluster (2 * n1 + 1);
  let npt0 := e0 - s0 + 1 in
  let npt1 := e1 - s1 + 1 in
  nrow <- st (d_nrow s) ii (npt0 * kdim);
  ncol <- st (d_ncol s) ii (npt1 * kdim);
  let size := (npt0 * kdim) * (npt1 * kdim) in
  ptr <- st (d_ptr s) (ii + 1) size;
  let ps := d_ps s ++ [(n0, n1, ii + 1)] in
  Some (DSt nrow ncol ptr (d_tot s + size) (if ewald then ps else ps ++ [(n1, n0, - (ii + 1))])).

Definition gen_D_metadata (kdim n_node n_leaf n_thread ntask : Z) (ewald : bool) (leaves cluster : mem Z)
    (pairs : list (Z * Z)) (ord : list Z) (blk0 blk1 : int_vec) : option (bmeta * int_vec * int_vec) :=
  let n := n_leaf + zlen pairs in
  ptr <- st (alloc (n + 1)) 0 0;
  s <- zfor 0 n_leaf (D_leaf_item kdim leaves cluster) (DSt (alloc n) (alloc n) ptr 0 []);
  let tot0 := d_tot s in
  s <- zfor 0 (zlen pairs) (D_pair_item kdim n_leaf ewald cluster pairs) (DSt (d_nrow s) (d_ncol s) (d_ptr s) 0 (d_ps s));
  let tot1 := d_tot s in
  sizes0 <- read_cells (d_ptr s) 1 n_leaf;
  blk0 <- partition_workload n_leaf sizes0 tot0 (n_thread * ntask) blk0;
  sizes1 <- read_cells (d_ptr s) (n_leaf + 1) (zlen pairs);
  blk1 <- partition_workload (zlen pairs) sizes1 tot1 (n_thread * ntask) blk1;
  ptr <- prefix_sums n (d_ptr s);
  '(rp, ci, va) <- pair_index n_node (n_leaf + 2 * zlen pairs) (d_ps s) ord;
  Some (BMeta (d_nrow s) (d_ncol s) ptr (tot0 + tot1) rp ci va, blk0, blk1).

(** ** Filling the blocks *)
Section Kernel.
Context {F : num} {K : Type}.

(** The user's kernel: [kern p q a b] is entry (a, b) of the krnl_dim-by-krnl_dim
    block of the kernel matrix for the points with coordinates p and q. *)
Variable kern : list F -> list F -> Z -> Z -> K.

(** Coordinates of point [j] of a set stored with leading dimension [ldc]. *)
Definition point (dim : Z) (c : mem F) (off ldc j : Z) : option (list F) :=
  all_some (map (fun d => ld c (off + d * ldc + j)) (zrange 0 dim)).

(** H2Pack_typedef.h:10-29 kernel_eval_fptr: the contract of krnl_eval as H2Pack
    uses it; the function itself is the user's. *)
Definition krnl_eval (dim kdim : Z) (cs0 : mem F) (o0 ld0 n0 : Z) (cs1 : mem F) (o1 ld1 n1 : Z)
    (mat : mem K) (off ldm : Z) : option (mem K) :=
  zfor 0 n0 (fun i m =>
    p <- point dim cs0 o0 ld0 i;
    zfor 0 n1 (fun j m =>
      q <- point dim cs1 o1 ld1 j;
      zfor 0 kdim (fun a m => zfor 0 kdim (fun b m =>
        st m (off + (i * kdim + a) * ldm + (j * kdim + b)) (kern p q a b)) m) m) m) mat.

End Kernel.

Section Fill.
Context {F : num} {K : cring}.
Variable kern : list F -> list F -> Z -> Z -> K.

(** The fields build_{B,D}_AOT read. *)
Record bctx := BCtx {
  x_dim : Z; x_kdim : Z; x_npoint : Z; x_coord : mem F; x_Jc : list (dmat F);
  x_level : mem Z; x_cluster : mem Z; x_leaves : mem Z; x_nleaf : Z
}.

(** H2Pack_build.c:826-870: block [i] of H2P_build_B_AOT (also 365-402 of
    H2Pack_utils.c, with another destination). *)
Definition eval_B (c : bctx) (n0 n1 : Z) (mat : mem K) (off : Z) : option (mem K) :=
  l0 <- ld (x_level c) n0;
  l1 <- ld (x_level c) n1;
  if l0 =? l1 then
    j0 <- getz (x_Jc c) n0;
    j1 <- getz (x_Jc c) n1;
    krnl_eval kern (x_dim c) (x_kdim c) (dm_data j0) 0 (dm_ncol j0) (dm_ncol j0) (dm_data j1) 0 (dm_ncol j1) (dm_ncol j1)
      mat off (dm_ncol j1 * x_kdim c)
  else if l1 <? l0 then
    s1 <- ld (x_cluster c) (2 * n1);
    e1 <- ld (x_cluster c) (2 * n1 + 1);
    let npt1 := e1 - s1 + 1 in
    j0 <- getz (x_Jc c) n0;
    krnl_eval kern (x_dim c) (x_kdim c) (dm_data j0) 0 (dm_ncol j0) (dm_ncol j0) (x_coord c) s1 (x_npoint c) npt1
      mat off (npt1 * x_kdim c)
  else
    s0 <- ld (x_cluster c) (2 * n0);
    e0 <- ld (x_cluster c) (2 * n0 + 1);
    let npt0 := e0 - s0 + 1 in
    j1 <- getz (x_Jc c) n1;
    krnl_eval kern (x_dim c) (x_kdim c) (x_coord c) s0 (x_npoint c) npt0 (dm_data j1) 0 (dm_ncol j1) (dm_ncol j1)
      mat off (dm_ncol j1 * x_kdim c).

Definition fill_B (c : bctx) (pairs : list (Z * Z)) (ptr : mem Z) (i : Z) (data : mem K) : option (mem K) :=
  '(n0, n1) <- getz pairs i;
  p <- ld ptr i;
  eval_B c n0 n1 data p.

(** H2Pack_build.c:1104-1116 (and H2Pack_utils.c:433-449): the dense block of a
    pair of nodes; 1080-1090: of a leaf with itself. *)
Definition eval_D (c : bctx) (n0 n1 : Z) (mat : mem K) (off : Z) : option (mem K) :=
  s0 <- ld (x_cluster c) (2 * n0);
  s1 <- ld (x_cluster c) (2 * n1);
  e0 <- ld (x_cluster c) (2 * n0 + 1);
  e1 <- ld (x_cluster c) (2 * n1 + 1);
  let npt0 := e0 - s0 + 1 in
  let npt1 := e1 - s1 + 1 in
  krnl_eval kern (x_dim c) (x_kdim c) (x_coord c) s0 (x_npoint c) npt0 (x_coord c) s1 (x_npoint c) npt1
    mat off (npt1 * x_kdim c).
Definition fill_D0 (c : bctx) (ptr : mem Z) (i : Z) (data : mem K) : option (mem K) :=
  node <- ld (x_leaves c) i;
  p <- ld ptr i;
  eval_D c node node data p.
Definition fill_D1 (c : bctx) (pairs : list (Z * Z)) (ptr : mem Z) (i : Z) (data : mem K) : option (mem K) :=
  '(n0, n1) <- getz pairs i;
  p <- ld ptr (i + x_nleaf c);
  eval_D c n0 n1 data p.

(** Thread [tid] of the parallel regions takes block [tid] only; the two
    boundaries are read before the test whether there is such a block. *)
Definition own_block (nblk : Z) (tid : Z) : list Z := if tid <? nblk then [tid] else [].
Definition bounds_readable (n_thread : Z) (blk : int_vec) : bool :=
  forallb (fun tid => tid + 1 <? zlen (iv_data blk)) (zrange 0 n_thread).

(** H2Pack_build.c:789-889 H2P_build_B_AOT; [evs]: the blocks in the order they
    are handled. *)
Definition build_B_AOT (c : bctx) (n_thread : Z) (pairs : list (Z * Z)) (m : bmeta) (blk : int_vec) (evs : list (Z * Z)) : option (mem K) :=
  if bounds_readable n_thread blk then
    run (map (fun ev => fill_B c pairs (bm_ptr m) (snd ev)) evs) (alloc (bm_total m))
  else None.

(** H2Pack_build.c:1034-1140 H2P_build_D_AOT. *)
Definition build_D_AOT (c : bctx) (n_thread : Z) (pairs : list (Z * Z)) (m : bmeta) (blk0 blk1 : int_vec)
    (evs : list (Z * (bool * Z))) : option (mem K) :=
  if bounds_readable n_thread blk0 && bounds_readable n_thread blk1 then
    run (map (fun (ev : Z * (bool * Z)) d => let '(_, (isoff, i)) := ev in
           if (isoff : bool) then fill_D1 c pairs (bm_ptr m) i d else fill_D0 c (bm_ptr m) i d) evs) (alloc (bm_total m))
  else None.

(** The interleavings of the threads. *)
Definition B_AOT_schedule (n_thread : Z) (blk : int_vec) (l : list (Z * Z)) : Prop :=
  inter (thread_items blk (map (own_block (iv_len blk - 1)) (zrange 0 n_thread))) l.
Definition D_AOT_schedule (n_thread : Z) (blk0 blk1 : int_vec) (l : list (Z * (bool * Z))) : Prop :=
  inter (map (fun '(l0, l1) => map (fun '(t, i) => (t, (false, i))) l0 ++ map (fun '(t, i) => (t, (true, i))) l1)
           (combine (thread_items blk0 (map (own_block (iv_len blk0 - 1)) (zrange 0 n_thread)))
                    (thread_items blk1 (map (own_block (iv_len blk1 - 1)) (zrange 0 n_thread))))) l.

(** ** H2Pack_build.c:1193-1208: forward and backward permutation indices *)
Definition pmt_indices (n_point kdim : Z) (coord_idx : mem Z) : option (mem Z * mem Z) :=
  zfor 0 n_point (fun i (x : mem Z * mem Z) =>
    zfor 0 kdim (fun j (x : mem Z * mem Z) => let '(fwd, bwd) := x in
      ci <- ld coord_idx i;
      fwd <- st fwd (i * kdim + j) (ci * kdim + j);
      bwd <- st bwd (ci * kdim + j) (i * kdim + j);
      Some (fwd, bwd)) x) (alloc (n_point * kdim), alloc (n_point * kdim)).

(** ** H2Pack_build.c:1143-1209 H2P_build with BD_JIT == 0, after the projection
    matrices [U], skeletons [J] and their coordinates [Jc] have been built.  The
    work-block vectors B_blk, D_blk0, D_blk1 come from H2P_init (H2Pack_typedef.c). *)
Record build_sched := BSched { bs_ordB : list Z; bs_ordD : list Z; bs_evB : list (Z * Z); bs_evD : list (Z * (bool * Z)) }.
Definition ctx_of (pt_dim xpt_dim kdim n_point : Z) (t : tree_result F) (Jc : list (dmat F)) : bctx :=
  BCtx xpt_dim kdim n_point (r_coord t) Jc (a_level (r_arrays t)) (a_cluster (r_arrays t)) (a_height_nodes (r_arrays t)) (r_n_leaf t).
Definition h2_build (pt_dim xpt_dim kdim n_point n_thread : Z) (t : tree_result F) (ps : pairs)
    (U : list (dmat K)) (J : list int_vec) (Jc : list (dmat F)) (blkB blkD0 blkD1 : int_vec) (sc : build_sched)
    : option (h2rep F K * bmeta * bmeta) :=
  let a := r_arrays t in
  let c := ctx_of pt_dim xpt_dim kdim n_point t Jc in
  mcl <- mat_clusters kdim (r_n_node t) (a_cluster a);
  '(bm, nr, bB) <- gen_B_metadata kdim (r_n_node t) n_thread 1 false (a_level a) (a_cluster a) J (ps_adm ps) (bs_ordB sc) blkB;
  Bd <- build_B_AOT c n_thread (ps_adm ps) bm bB (bs_evB sc);
  '(dm, bD0, bD1) <- gen_D_metadata kdim (r_n_node t) (r_n_leaf t) n_thread 1 false (a_height_nodes a) (a_cluster a) (ps_inadm ps) (bs_ordD sc) blkD0 blkD1;
  Dd <- build_D_AOT c n_thread (ps_inadm ps) dm bD0 bD1 (bs_evD sc);
  '(fwd, bwd) <- pmt_indices n_point kdim (r_idx t);
  fwd <- read_cells fwd 0 (n_point * kdim);
  bwd <- read_cells bwd 0 (n_point * kdim);
  Some ({| h_ptdim := pt_dim; h_npoint := n_point; h_kdim := kdim; h_nthread := n_thread; h_nnode := r_n_node t;
           h_maxchild := 2 ^ pt_dim; h_nleaf := r_n_leaf t; h_maxlevel := r_max_level t; h_minlevel := ps_min_level ps;
           h_kms := kdim * n_point; h_t := a; h_mcl := mcl; h_U := U; h_adm := ps_adm ps; h_inadm := ps_inadm ps; h_nr := nr;
           h_Bnrow := bm_nrow bm; h_Bncol := bm_ncol bm; h_Bptr := bm_ptr bm; h_Bdata := Bd;
           h_Dnrow := bm_nrow dm; h_Dncol := bm_ncol dm; h_Dptr := bm_ptr dm; h_Ddata := Dd;
           h_Bblk := bB; h_D0blk := bD0; h_D1blk := bD1; h_fwd := fwd; h_bwd := bwd |}, bm, dm).

(** H2Pack_matvec.c:1149-1159 H2P_permute_vector_forward and
    H2P_permute_vector_backward (Model_Matvec.v has the same calls inlined). *)
Definition permute_vector_forward {F : num} {K : cring} (h : h2rep F K) (x pmt_x : mem K) : option (mem K) :=
  gather_vector_elements (h_kms h) (h_fwd h) x 0 pmt_x 0.
Definition permute_vector_backward {F : num} {K : cring} (h : h2rep F K) (x pmt_x : mem K) : option (mem K) :=
  gather_vector_elements (h_kms h) (h_bwd h) x 0 pmt_x 0.

(** ** Block lookup *)

(** H2Pack_utils.c:330-404 H2P_get_Bij_block and 407-451 H2P_get_Dij_block.
    [None]: error in memory; [Some None]: "does not exist" is printed and the
    output left alone.  The transposed view is marked by a negative leading
    dimension.  [regen]: BD_JIT == 1, the block is evaluated again. *)
Definition get_block (eval : Z -> Z -> mem K -> Z -> option (mem K)) (m : bmeta) (data : mem K) (regen : bool) (n0 n1 : Z) (out : dmat K)
    : option (option (dmat K)) :=
  v <- csr_get (bm_rowptr m) (bm_colidx m) (bm_val m) n0 n1;
  if v =? 0 then Some None else
  let '(trans, idx, m0, m1) := if v <? 0 then (true, - v, n1, n0) else (false, v, n0, n1) in
  let idx := idx - 1 in
  nrow <- ld (bm_nrow m) idx;
  ncol <- ld (bm_ncol m) idx;
  let out := dm_resize out nrow ncol in
  d <- (if regen : bool then eval m0 m1 (dm_data out) 0
        else p <- ld (bm_ptr m) idx; copy_matrix nrow ncol data p ncol (dm_data out) 0 ncol);
  let out := dm_set_data out d in
  Some (Some (if trans then mkDM (dm_nrow out) (dm_ncol out) (- dm_ld out) (dm_size out) (dm_data out) else out)).
Definition get_Bij (c : bctx) := get_block (eval_B c).
Definition get_Dij (c : bctx) := get_block (eval_D c).

End Fill.
Arguments bctx : clear implicits.
