(** Model of the periodic (RPY Ewald) product: src/H2Pack_matmul_periodic.c,
    src/H2Pack_build_periodic.c and H2P_shift_coord of src/H2Pack_utils.c.

    Points have coordinates in an arbitrary number type F (rounding allowed),
    matrix entries are in a commutative ring K.  Accesses are checked ([None]:
    outside an array or of an unwritten cell).  OpenMP loops run in an arbitrary
    order on arbitrary threads, iterations are atomic (see Model_Matmul.v).  The
    buffer thread_buf[tid]->mat1, which holds coordinates here, is a separate
    component of the state because the two types differ. *)
From Coq Require Import ZArith QArith List Lia Bool Permutation.
From Verif Require Import Base Mem Num CRing Conc Model_Utils Model_Dense Model_CSR Model_Partition Model_Pairs Model_Matvec Model_Build Model_Matmul.
Import ListNotations.
Open Scope Z_scope.

Section Periodic.
Context {F : num} {K : cring}.
Variable kern : list F -> list F -> Z -> Z -> K.
Local Open Scope ring_K.

(** H2Pack_utils.c:527-535 H2P_shift_coord. *)
Definition shift_coord (m : dmat F) (shift : mem F) (scale : F) : option (dmat F) :=
  d <- zfor 0 (dm_nrow m) (fun i d => zfor 0 (dm_ncol m) (fun j d =>
         x <- ld d (i * dm_ld m + j)%Z;
         s <- ld shift i;
         st d (i * dm_ld m + j)%Z (nadd x (nmul scale s))) d) (dm_data m);
  Some (dm_set_data m d).

(** The fields the two products read besides the tree and the bases: xpt_dim,
    pt_dim, krnl_dim, n_point, coord, J_coord, pt_cluster, n_leaf_node,
    per_adm_shifts, per_inadm_shifts, the sizes and pair-to-index matrices of the
    B and D blocks, per_blk and J[root]->length. *)
Record pctx := PCtx {
  q_xdim : Z; q_dim : Z; q_kdim : Z; q_npoint : Z; q_coord : mem F; q_Jc : list (dmat F);
  q_cluster : mem Z; q_nleaf : Z; q_shB : mem F; q_shD : mem F; q_bm : bmeta; q_dm : bmeta;
  q_blk : mem K; q_Jroot : Z
}.

(** The local array "DTYPE shift[8] = {0, ...}". *)
Definition shift8 : mem F := repeat (Some (nlit 0%Q)) 8.

(** H2Pack_matmul_periodic.c:73-74, 205-206: copy shift number [idx].  The array
    is declared outside the loop; only its first pt_dim cells are ever written. *)
Definition get_shift (c : pctx) (shifts : mem F) (idx : Z) : option (mem F) :=
  zfor 0 (q_dim c) (fun k sh => v <- ld shifts (idx * q_dim c + k)%Z; st sh k v) shift8.

(** H2Pack_matmul_periodic.c:100-107, 211-213: the points of [node], shifted, in
    coord1_s. *)
Definition cluster_shifted (c : pctx) (node : Z) (shift : mem F) (m1 : dmat F) : option (dmat F) :=
  s <- ld (q_cluster c) (node * 2);
  e <- ld (q_cluster c) (node * 2 + 1);
  let npt := (e - s + 1)%Z in
  let m1 := dm_resize m1 (q_xdim c) npt in
  d <- copy_matrix (q_xdim c) npt (q_coord c) s (q_npoint c) (dm_data m1) 0 (dm_ld m1);
  shift_coord (dm_set_data m1 d) shift (nlit 1%Q).

(** H2Pack_matmul_periodic.c:84-85, 126-127: the skeleton points of [node], shifted. *)
Definition skeleton_shifted (c : pctx) (node : Z) (shift : mem F) (m1 : dmat F) : option (dmat F) :=
  j <- getz (q_Jc c) node;
  m1 <- dm_copy j m1;
  shift_coord m1 shift (nlit 1%Q).

(** H2Pack_matmul_periodic.c:73-134: block Bij of the pair number [idx] =
    (node0, node1), in the buffers mat0 and mat1 of the thread. *)
Definition per_B_block (h : h2rep F K) (c : pctx) (node0 node1 idx : Z) (x : dmat K * dmat F) : option (dmat K * dmat F) :=
  let '(bij, m1) := x in
  level0 <- ld (a_level (h_t h)) node0;
  level1 <- ld (a_level (h_t h)) node1;
  shift <- get_shift c (q_shB c) idx;                                     (* 73-74 *)
  nrow <- ld (bm_nrow (q_bm c)) idx;                                      (* 76-78 *)
  ncol <- ld (bm_ncol (q_bm c)) idx;
  let bij := dm_resize bij nrow ncol in
  '(m1, d) <-
    (if level0 =? level1 then                                             (* 81-90 *)
       m1 <- skeleton_shifted c node1 shift m1;
       j0 <- getz (q_Jc c) node0;
       d <- krnl_eval kern (q_xdim c) (q_kdim c) (dm_data j0) 0 (dm_ld j0) (dm_ncol j0) (dm_data m1) 0 (dm_ld m1) (dm_ncol m1) (dm_data bij) 0 (dm_ld bij);
       Some (m1, d)
     else if level1 <? level0 then                                        (* 99-113 *)
       m1 <- cluster_shifted c node1 shift m1;
       j0 <- getz (q_Jc c) node0;
       d <- krnl_eval kern (q_xdim c) (q_kdim c) (dm_data j0) 0 (dm_ld j0) (dm_ncol j0) (dm_data m1) 0 (dm_ld m1) (dm_ncol m1) (dm_data bij) 0 (dm_ld bij);
       Some (m1, d)
     else                                                                 (* 121-133 *)
       s0 <- ld (q_cluster c) (node0 * 2);
       e0 <- ld (q_cluster c) (node0 * 2 + 1);
       m1 <- skeleton_shifted c node1 shift m1;
       d <- krnl_eval kern (q_xdim c) (q_kdim c) (q_coord c) s0 (q_npoint c) (e0 - s0 + 1)%Z (dm_data m1) 0 (dm_ld m1) (dm_ncol m1) (dm_data bij) 0 (dm_ld bij);
       Some (m1, d));
  Some (dm_set_data bij d, m1).

(** H2Pack_matmul_periodic.c:65-146: entry [i] of row node0 of the pair-to-index
    matrix.  The state is mat0, mat1, y1[node0] and mat_y. *)
Definition per_mid_pair (h : h2rep F K) (c : pctx) (nv : Z) (y0 : list (dmat K)) (px : mem K)
    (ldx xrs : Z) (xt : bool) (ldy yrs : Z) (yt : bool) (node0 i : Z) (x : dmat K * dmat F * dmat K * mem K) : option (dmat K * dmat F * dmat K * mem K) :=
  let '(bij, m1, y10, py) := x in
  node1 <- ld (bm_colidx (q_bm c)) i;
  v <- ld (bm_val (q_bm c)) i;
  level0 <- ld (a_level (h_t h)) node0;
  level1 <- ld (a_level (h_t h)) node1;
  y01 <- getz y0 node1;
  '(bij, m1) <- per_B_block h c node0 node1 (v - 1)%Z (bij, m1);
  let nrow := dm_nrow bij in
  let ncol := dm_ncol bij in
  let ldb := dm_ld bij in
  d <- (if level0 =? level1 then                                          (* 91-94 *)
          gemm false false nrow nv ncol (dm_data bij) 0 ldb (dm_data y01) 0 (dm_ld y01) true (dm_data y10) 0 (dm_ld y10)
        else Some (dm_data y10));
  d <- (if level1 <? level0 then                                          (* 114-118 *)
          xs <- ld (h_mcl h) (node1 * 2);
          gemm false xt nrow nv ncol (dm_data bij) 0 ldb px (xs * xrs) ldx true d 0 (dm_ld y10)
        else Some d);
  py <- (if level0 <? level1 then                                         (* 134-146 *)
           ys <- ld (h_mcl h) (node0 * 2);
           if yt then gemm true true nv nrow ncol (dm_data y01) 0 (dm_ld y01) (dm_data bij) 0 ldb true py (ys * yrs) ldy
           else gemm false false nrow nv ncol (dm_data bij) 0 ldb (dm_data y01) 0 (dm_ld y01) true py (ys * yrs) ldy
         else Some py);
  Some (bij, m1, dm_set_data y10 d, py).

(** The state of a product: the working buffers and thread_buf[tid]->mat1. *)
Definition pst : Type := mvst K * list (dmat F).

(** H2Pack_matmul_periodic.c:56-147: iteration [node0] on thread [tid]. *)
Definition per_mid_node (h : h2rep F K) (c : pctx) (nv ldx xrs : Z) (xt : bool) (ldy yrs : Z) (yt : bool)
    (tid node0 : Z) (z : pst) : option pst :=
  let '(s, ms) := z in
  y0 <- s_y0 s;
  y1 <- s_y1 s;
  bij <- getz (s_m0 s) tid;
  m1 <- getz ms tid;
  y10 <- getz y1 node0;
  d <- mzero c0 (dm_data y10) (dm_nrow y10 * dm_ncol y10);
  a <- ld (bm_rowptr (q_bm c)) node0;
  b <- ld (bm_rowptr (q_bm c)) (node0 + 1);
  '(bij, m1, y10, py) <- zfor a b (fun i x =>
      per_mid_pair h c nv y0 (s_px s) ldx xrs xt ldy yrs yt node0 i x) (bij, m1, dm_set_data y10 d, s_py s);
  m0 <- setz (s_m0 s) tid bij;
  ms <- setz ms tid m1;
  y1 <- setz y1 node0 y10;
  Some (set_py (set_y1 (set_m0 s m0) y1) py, ms).

(** H2Pack_matmul_periodic.c:17-149 H2P_matmul_periodic_intmd_mult. *)
Definition per_mid (h : h2rep F K) (c : pctx) (nv ldx xrs : Z) (xt : bool) (ldy yrs : Z) (yt : bool) (evs : list (Z * Z)) (z : pst) : option pst :=
  s <- mm_init_y1 h nv (fst z);
  run (map (fun ev => per_mid_node h c nv ldx xrs xt ldy yrs yt (fst ev) (snd ev)) evs) (s, snd z).

(** H2Pack_matmul_periodic.c:332-344: the block of the root node; root_idx =
    n_node - 1. *)
Definition per_root (h : h2rep F K) (c : pctx) (nv : Z) (s : mvst K) : option (mvst K) :=
  let root := (h_nnode h - 1)%Z in
  let size := (q_Jroot c * q_kdim c)%Z in
  y0 <- s_y0 s;
  y1 <- s_y1 s;
  y0r <- getz y0 root;
  y1r <- getz y1 root;
  let y1r := dm_resize y1r size nv in
  d <- gemm false false size nv size (q_blk c) 0 size (dm_data y0r) 0 nv false (dm_data y1r) 0 nv;
  y1 <- setz y1 root (dm_set_data y1r d);
  Some (set_y1 s y1).

(** H2Pack_matmul_periodic.c:198-219: block Dij of pair number [idx]. *)
Definition per_D_block (c : pctx) (node0 node1 idx : Z) (x : dmat K * dmat F) : option (dmat K * dmat F) :=
  let '(dij, m1) := x in
  s0 <- ld (q_cluster c) (2 * node0);
  e0 <- ld (q_cluster c) (2 * node0 + 1);
  nrow <- ld (bm_nrow (q_dm c)) idx;
  ncol <- ld (bm_ncol (q_dm c)) idx;
  let dij := dm_resize dij nrow ncol in
  shift <- (if idx <? q_nleaf c
            then zfor 0 (q_dim c) (fun k sh => st sh k (nlit 0%Q)) shift8             (* 202 *)
            else get_shift c (q_shD c) (idx - q_nleaf c)%Z);                          (* 205-206 *)
  m1 <- cluster_shifted c node1 shift m1;
  d <- krnl_eval kern (q_xdim c) (q_kdim c) (q_coord c) s0 (q_npoint c) (e0 - s0 + 1)%Z (dm_data m1) 0 (dm_ld m1) (dm_ncol m1) (dm_data dij) 0 (dm_ld dij);
  Some (dm_set_data dij d, m1).

(** H2Pack_matmul_periodic.c:188-233: entry [i] of row node0. *)
Definition per_den_pair (h : h2rep F K) (c : pctx) (nv : Z) (px : mem K) (ldx xrs : Z) (xt : bool) (ldy yo : Z) (node0 i : Z)
    (x : dmat K * dmat F * mem K) : option (dmat K * dmat F * mem K) :=
  let '(dij, m1, py) := x in
  node1 <- ld (bm_colidx (q_dm c)) i;
  v <- ld (bm_val (q_dm c)) i;
  xs <- ld (h_mcl h) (2 * node1);
  '(dij, m1) <- per_D_block c node0 node1 (v - 1)%Z (dij, m1);
  let nrow := dm_nrow dij in
  let ncol := dm_ncol dij in
  py <- (if xt then gemm false true nv nrow ncol px (xs * xrs) ldx (dm_data dij) 0 (dm_ld dij) true py yo ldy
         else gemm false false nrow nv ncol (dm_data dij) 0 (dm_ld dij) px (xs * xrs) ldx true py yo ldy);
  Some (dij, m1, py).

(** H2Pack_matmul_periodic.c:181-234: iteration [node0] on thread [tid]. *)
Definition per_den_node (h : h2rep F K) (c : pctx) (nv ldx xrs : Z) (xt : bool) (ldy yrs : Z) (tid node0 : Z) (z : pst) : option pst :=
  let '(s, ms) := z in
  ys <- ld (h_mcl h) (2 * node0);
  dij <- getz (s_m0 s) tid;
  m1 <- getz ms tid;
  a <- ld (bm_rowptr (q_dm c)) node0;
  b <- ld (bm_rowptr (q_dm c)) (node0 + 1);
  '(dij, m1, py) <- zfor a b (fun i x =>
      per_den_pair h c nv (s_px s) ldx xrs xt ldy (ys * yrs) node0 i x) (dij, m1, s_py s);
  m0 <- setz (s_m0 s) tid dij;
  ms <- setz ms tid m1;
  Some (set_py (set_m0 s m0) py, ms).

(** H2Pack_matmul_periodic.c:152-237 H2P_matmul_periodic_dense_mult. *)
Definition per_den (h : h2rep F K) (c : pctx) (nv ldx xrs : Z) (xt : bool) (ldy yrs : Z) (evs : list (Z * Z)) (z : pst) : option pst :=
  run (map (fun ev => per_den_node h c nv ldx xrs xt ldy yrs (fst ev) (snd ev)) evs) z.

(** H2Pack_matmul_periodic.c:284-383: one batch of columns. *)
Definition per_batch (h : h2rep F K) (c : pctx) (mmx : Z) (col : bool) (sc : mm_sched) (ivec nv : Z)
    (x : mem K) (ldx : Z) (ldy : Z) (z : pst) (y : mem K) : option (pst * mem K) :=
  let '(s, ms) := z in
  let xcs := if col then ldx else 1 in
  let ycs := if col then ldy else 1 in
  let ldp := if col then h_kms h else mmx in
  let prs := if col then 1 else ldp in
  px <- permute_rows h (h_fwd h) col nv x (ivec * xcs) ldx (s_px s) 0 ldp;
  py <- mm_reset col (h_kms h) nv ldp (s_py s);
  s <- mm_fwd h nv ldp prs col (mc_fwd sc) (set_py (set_px s px) py);
  '(s, ms) <- per_mid h c nv ldp prs col ldp prs col (mc_mid sc) (s, ms);
  s <- per_root h c nv s;
  s <- mm_bwd h nv ldp col (mc_bwd sc) s;
  '(s, ms) <- per_den h c nv ldp prs col ldp prs (mc_den sc) (s, ms);
  y <- permute_rows h (h_bwd h) col nv (s_py s) 0 ldp y (ivec * ycs) ldy;
  Some ((s, ms), y).

(** H2Pack_matmul_periodic.c:240-386 H2P_matmul_periodic. *)
Definition matmul_periodic (h : h2rep F K) (c : pctx) (mmx : Z) (col : bool) (sc : Z -> mm_sched) (n_vec : Z)
    (z : pst) (x : mem K) (ldx : Z) (y : mem K) (ldy : Z) : option (pst * mem K) :=
  let s := set_py (set_px (fst z) (alloc (h_kms h * mmx))) (alloc (h_kms h * mmx)) in
  zfor 0 ((n_vec + mmx - 1) / mmx) (fun b (w : pst * mem K) => let '(z, y) := w in
    let ivec := (b * mmx)%Z in
    let nv := if ivec + mmx <=? n_vec then mmx else (n_vec - ivec)%Z in
    per_batch h c mmx col (sc b) ivec nv x ldx ldy z y) ((s, snd z), y).

(** ** Building *)

(** H2Pack_build_periodic.c:51-70: the block of lattice [l]: shift the copied
    skeleton, evaluate, subtract, shift back. *)
Definition per_lattice (xdim dim kdim : Z) (jr : dmat F) (width : Z -> option F) (lattices : mem F) (l : Z)
    (x : dmat F * dmat K * mem K) : option (dmat F * dmat K * mem K) :=
  let '(js, kb, blk) := x in
  let size := (dm_ncol jr * kdim)%Z in
  shift <- zfor 0 dim (fun j sh => w <- width j; v <- ld lattices (l * dim + j)%Z; st sh j (nmul w v)) shift8;  (* 57 *)
  js <- shift_coord js shift (nlit 1%Q);                                                                       (* 59 *)
  d <- krnl_eval kern xdim kdim (dm_data jr) 0 (dm_ld jr) (dm_ncol jr) (dm_data js) 0 (dm_ld js) (dm_ncol jr)
         (dm_data kb) 0 (dm_ld kb);                                                                            (* 61-65 *)
  blk <- zfor 0 (size * size) (fun i blk => a <- ld blk i; b <- ld d i; st blk i (a - b)) blk;                  (* 67-68 *)
  js <- shift_coord js shift (nlit (-1)%Q);                                                                    (* 70 *)
  Some (js, dm_set_data kb d, blk).

(** H2Pack_build_periodic.c:17-75 H2P_build_periodic_block: per_blk.  [m0], [m1]
    are the buffers of thread 0; [width j] is cell j of the width of the root
    box; [pkern] is the kernel of the periodic system. *)
Definition per_block (pkern : list F -> list F -> Z -> Z -> K) (xdim dim kdim n_lattice : Z) (jr : dmat F) (width : Z -> option F) (lattices : mem F)
    (m0 : dmat F) (m1 : dmat K) : option (mem K) :=
  let n := dm_ncol jr in
  let size := (n * kdim)%Z in
  blk <- krnl_eval pkern xdim kdim (dm_data jr) 0 (dm_ld jr) n (dm_data jr) 0 (dm_ld jr) n (alloc (size * size)) 0 size; (* 40-44 *)
  let kb := dm_resize m1 size size in                                                                          (* 46 *)
  let js := dm_resize m0 xdim n in                                                                             (* 47 *)
  d <- copy_matrix xdim n (dm_data jr) 0 (dm_ld jr) (dm_data js) 0 (dm_ld js);                                  (* 48-51 *)
  '(_, _, blk) <- zfor 0 n_lattice (per_lattice xdim dim kdim jr width lattices) (dm_set_data js d, kb, blk);
  Some blk.
End Periodic.
Arguments pctx : clear implicits.
Arguments pst : clear implicits.
