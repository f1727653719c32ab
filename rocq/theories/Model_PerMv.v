(** Model of src/H2Pack_matvec_periodic.c: the periodic product with one vector.
    Conventions as in Model_Periodic.v and Model_JIT.v.  The fields of the handle
    and the working buffers are those of Model_Periodic.v; [mv] says that the user
    supplied krnl_mv (!= NULL). *)
From Coq Require Import ZArith QArith List Lia Bool Permutation.
From Verif Require Import Base Mem Num CRing Conc Model_Utils Model_Dense Model_CSR Model_Partition Model_Pairs Model_Matvec Model_Build Model_Matmul Model_JIT Model_Periodic.
Import ListNotations.
Open Scope Z_scope.

Section PerMv.
Context {F : num} {K : cring}.
Variable kern : list F -> list F -> Z -> Z -> K.
(** SIMD_LEN. *)
Variable simd : Z.
Local Open Scope ring_K.

(** H2Pack_typedef.h:31-54 kernel_mv_fptr: the contract of the user's krnl_mv.
    The vectors are krnl_dim-by-ld matrices. *)
Definition krnl_mv (dim kdim : Z) (c0s : mem F) (ld0 n0 : Z) (c1s : mem F) (ld1 n1 : Z) (inp out : mem K) : option (mem K) :=
  zfor 0 n0 (fun i o =>
    p <- point dim c0s 0 ld0 i;
    zfor 0 n1 (fun j o =>
      q <- point dim c1s 0 ld1 j;
      zfor 0 kdim (fun a o => zfor 0 kdim (fun b o =>
        x <- ld inp (b * ld1 + j)%Z;
        madd o (a * ld0 + i)%Z (kern p q a b * x)) o) o) o) out.

(** The coordinate 1e100 of the padding points (lines 66-67). *)
Definition far_away : F := nlit (inject_Z (10 ^ 100)).

(** H2Pack_matvec_periodic.c:37-97 H2P_ext_krnl_mv.  The parts of workbuf are
    separate arrays here; that together they fit in it is checked (45-53).  x_in
    is at offset [oi] of [xin], x_out at offset [oo] of [out].  (The buffer
    workbuf itself, thread_buf[tid]->mat0, is left alone in the model; its
    contents are not used afterwards.) *)
Definition ext_krnl_mv (dim kdim : Z) (cs0 : mem F) (o0 ld0 n0 : Z) (cs1 : mem F) (o1 ld1 n1 : Z)
    (xin : mem K) (oi ldi : Z) (out : mem K) (oo ldo : Z) : option (mem K) :=
  let n0e := ext_len simd n0 in
  let n1e := ext_len simd n1 in
  if ((dim + kdim) * (n0e + n1e) <? dim * n0e + dim * n1e + n1e * kdim + n0e * kdim)%Z then None else
  trg <- pad_rows far_away dim n0 n0e (fun k => ld cs0 (o0 + k)) ld0;                   (* 56-68 *)
  src <- pad_rows far_away dim n1 n1e (fun k => ld cs1 (o1 + k)) ld1;
  x <- pad_rows c0 kdim n1 n1e (fun k => ld xin (oi + k)) ldi;                          (* 73-79 *)
  o <- mzero c0 (alloc (n0e * kdim)) (n0e * kdim);                                      (* 80 *)
  o <- krnl_mv dim kdim trg n0e n0e src n1e n1e x o;                                    (* 83-87 *)
  zfor 0 kdim (fun i out => zfor 0 n0 (fun j out =>                                     (* 90-96 *)
    v <- ld o (i * n0e + j)%Z; madd out (oo + (i * ldo + j))%Z v) out) out.

(** H2Pack_matvec_periodic.c:154-263: entry [i] of row node0 of the pair-to-index
    matrix.  [x] is the vector passed to the function; the state is mat0, mat1,
    y1[node0] and y.  With krnl_mv == NULL the block is evaluated by the same
    statements as in H2Pack_matmul_periodic.c. *)
Definition pv_mid_pair (mv : bool) (h : h2rep F K) (c : pctx F K) (y0 : list (dmat K)) (x : mem K) (node0 i : Z)
    (w : dmat K * dmat F * dmat K * mem K) : option (dmat K * dmat F * dmat K * mem K) :=
  let '(bij, m1, y10, y) := w in
  node1 <- ld (bm_colidx (q_bm c)) i;
  v <- ld (bm_val (q_bm c)) i;
  let idx := (v - 1)%Z in
  level0 <- ld (a_level (h_t h)) node0;
  level1 <- ld (a_level (h_t h)) node1;
  y01 <- getz y0 node1;
  if mv then
    shift <- get_shift c (q_shB c) idx;
    nrow <- ld (bm_nrow (q_bm c)) idx;
    ncol <- ld (bm_ncol (q_bm c)) idx;
    if level0 =? level1 then
      m1 <- skeleton_shifted c node1 shift m1;
      j0 <- getz (q_Jc c) node0;
      d <- ext_krnl_mv (q_xdim c) (q_kdim c) (dm_data j0) 0 (dm_ld j0) (dm_ncol j0) (dm_data m1) 0 (dm_ld m1) (dm_ncol m1)
             (dm_data y01) 0 (ncol / q_kdim c)%Z (dm_data y10) 0 (nrow / q_kdim c)%Z;
      Some (bij, m1, dm_set_data y10 d, y)
    else if level1 <? level0 then
      s1 <- ld (q_cluster c) (node1 * 2);
      m1 <- cluster_shifted c node1 shift m1;
      j0 <- getz (q_Jc c) node0;
      d <- ext_krnl_mv (q_xdim c) (q_kdim c) (dm_data j0) 0 (dm_ld j0) (dm_ncol j0) (dm_data m1) 0 (dm_ld m1) (dm_ncol m1)
             x s1 (q_npoint c) (dm_data y10) 0 (nrow / q_kdim c)%Z;
      Some (bij, m1, dm_set_data y10 d, y)
    else
      s0 <- ld (q_cluster c) (node0 * 2);
      e0 <- ld (q_cluster c) (node0 * 2 + 1);
      m1 <- skeleton_shifted c node1 shift m1;
      y <- ext_krnl_mv (q_xdim c) (q_kdim c) (q_coord c) s0 (q_npoint c) (e0 - s0 + 1)%Z (dm_data m1) 0 (dm_ld m1) (dm_ncol m1)
             (dm_data y01) 0 (ncol / q_kdim c)%Z y s0 (q_npoint c);
      Some (bij, m1, y10, y)
  else
    '(bij, m1) <- per_B_block kern h c node0 node1 idx (bij, m1);
    let nrow := dm_nrow bij in
    let ncol := dm_ncol bij in
    if level0 =? level1 then
      d <- gemv_n nrow ncol (dm_data bij) 0 (dm_ld bij) (fun k => ld (dm_data y01) k) true (dm_data y10) 0;
      Some (bij, m1, dm_set_data y10 d, y)
    else if level1 <? level0 then
      xs <- ld (h_mcl h) (node1 * 2);
      d <- gemv_n nrow ncol (dm_data bij) 0 (dm_ld bij) (fun k => ld x (xs + k)%Z) true (dm_data y10) 0;
      Some (bij, m1, dm_set_data y10 d, y)
    else
      ys <- ld (h_mcl h) (node0 * 2);
      y <- gemv_n nrow ncol (dm_data bij) 0 (dm_ld bij) (fun k => ld (dm_data y01) k) true y ys;
      Some (bij, m1, y10, y).

(** The output vector of the two products: yT if [nt] (need_trans), else pmt_y. *)
Definition y_of (nt : bool) (s : mvst K) : mem K := if nt then s_yT s else s_py s.
Definition set_y (nt : bool) (s : mvst K) (y : mem K) : mvst K := if nt then set_yT s y else set_py s y.

(** H2Pack_matvec_periodic.c:139-144: iteration [i] of the first loop. *)
Definition pv_zero_node (i : Z) (s : mvst K) : option (mvst K) :=
  y1 <- s_y1 s;
  m <- getz y1 i;
  if dm_ld m =? 0 then Some s else
  d <- mzero c0 (dm_data m) (dm_ncol m);
  y1 <- setz y1 i (dm_set_data m d);
  Some (set_y1 s y1).

(** H2Pack_matvec_periodic.c:146-264: iteration [node0] on thread [tid]. *)
Definition pv_mid_node (mv nt : bool) (h : h2rep F K) (c : pctx F K) (x : mem K) (tid node0 : Z) (z : pst F K) : option (pst F K) :=
  let '(s, ms) := z in
  y0 <- s_y0 s;
  y1 <- s_y1 s;
  bij <- getz (s_m0 s) tid;
  m1 <- getz ms tid;
  y10 <- getz y1 node0;
  d <- mzero c0 (dm_data y10) (dm_nrow y10 * dm_ncol y10);
  a <- ld (bm_rowptr (q_bm c)) node0;
  b <- ld (bm_rowptr (q_bm c)) (node0 + 1);
  '(bij, m1, y10, y) <- zfor a b (pv_mid_pair mv h c y0 x node0) (bij, m1, dm_set_data y10 d, y_of nt s);
  m0 <- setz (s_m0 s) tid bij;
  ms <- setz ms tid m1;
  y1 <- setz y1 node0 y10;
  Some (set_y nt (set_y1 (set_m0 s m0) y1) y, ms).

(** H2Pack_matvec_periodic.c:101-281 H2P_matvec_periodic_intmd_mult_JIT. *)
Definition pv_mid (mv nt : bool) (h : h2rep F K) (c : pctx F K) (x : mem K) (team : list Z) (zs evs : list (Z * Z)) (z : pst F K) : option (pst F K) :=
  s <- init_y1 h team (fst z);
  s <- run (map (fun ev => pv_zero_node (snd ev)) zs) s;
  run (map (fun ev => pv_mid_node mv nt h c x (fst ev) (snd ev)) evs) (s, snd z).

(** H2Pack_matvec_periodic.c:327-374: entry [i] of row node0. *)
Definition pv_den_pair (mv : bool) (h : h2rep F K) (c : pctx F K) (x : mem K) (node0 i : Z) (w : dmat K * dmat F * mem K) : option (dmat K * dmat F * mem K) :=
  let '(dij, m1, y) := w in
  node1 <- ld (bm_colidx (q_dm c)) i;
  v <- ld (bm_val (q_dm c)) i;
  let idx := (v - 1)%Z in
  if mv then
    s0 <- ld (q_cluster c) (2 * node0);
    e0 <- ld (q_cluster c) (2 * node0 + 1);
    s1 <- ld (q_cluster c) (2 * node1);
    shift <- (if idx <? q_nleaf c
              then zfor 0 (q_dim c) (fun k sh => st sh k (nlit 0%Q)) shift8             (* 340-343 *)
              else get_shift c (q_shD c) (idx - q_nleaf c)%Z);                          (* 346-347 *)
    m1 <- cluster_shifted c node1 shift m1;                                             (* 350-352 *)
    y <- ext_krnl_mv (q_xdim c) (q_kdim c) (q_coord c) s0 (q_npoint c) (e0 - s0 + 1)%Z (dm_data m1) 0 (dm_ld m1) (dm_ncol m1)
           x s1 (q_npoint c) y s0 (q_npoint c);
    Some (dij, m1, y)
  else
    '(dij, m1) <- per_D_block kern c node0 node1 idx (dij, m1);
    xs <- ld (h_mcl h) (node1 * 2);
    ys <- ld (h_mcl h) (node0 * 2);
    y <- gemv_n (dm_nrow dij) (dm_ncol dij) (dm_data dij) 0 (dm_ld dij) (fun k => ld x (xs + k)%Z) true y ys;
    Some (dij, m1, y).

(** H2Pack_matvec_periodic.c:319-375: iteration [node0] on thread [tid]. *)
Definition pv_den_node (mv nt : bool) (h : h2rep F K) (c : pctx F K) (x : mem K) (tid node0 : Z) (z : pst F K) : option (pst F K) :=
  let '(s, ms) := z in
  dij <- getz (s_m0 s) tid;
  m1 <- getz ms tid;
  a <- ld (bm_rowptr (q_dm c)) node0;
  b <- ld (bm_rowptr (q_dm c)) (node0 + 1);
  '(dij, m1, y) <- zfor a b (pv_den_pair mv h c x node0) (dij, m1, y_of nt s);
  m0 <- setz (s_m0 s) tid dij;
  ms <- setz ms tid m1;
  Some (set_y nt (set_m0 s m0) y, ms).

(** H2Pack_matvec_periodic.c:285-391 H2P_matvec_periodic_dense_mult_JIT. *)
Definition pv_den (mv nt : bool) (h : h2rep F K) (c : pctx F K) (x : mem K) (evs : list (Z * Z)) (z : pst F K) : option (pst F K) :=
  run (map (fun ev => pv_den_node mv nt h c x (fst ev) (snd ev)) evs) z.

(** H2Pack_matvec_periodic.c:464-480: the block of the root node; root_idx =
    n_node - 1. *)
Definition pv_root (nt : bool) (h : h2rep F K) (c : pctx F K) (s : mvst K) : option (mvst K) :=
  let root := (h_nnode h - 1)%Z in
  let size := (q_Jroot c * q_kdim c)%Z in
  y0 <- s_y0 s;
  y1 <- s_y1 s;
  y0r <- getz y0 root;
  y1r <- getz y1 root;
  let y1r := dm_resize y1r 1 size in
  '(s, e) <- (if nt then
      tmp <- get_m0 0 (q_Jroot c) (q_kdim c) s;
      d <- transpose_dmat (@concat _) 1 (q_kdim c) (q_Jroot c) (dm_data y0r) (q_Jroot c) (dm_data tmp) (q_kdim c);
      s <- put_m0 0 (dm_set_data tmp d) s;
      e <- mcpy (dm_data y0r) 0 d 0 size;
      Some (s, e)
    else Some (s, dm_data y0r));
  d <- gemv_n size size (q_blk c) 0 size (fun k => ld e k) false (dm_data y1r) 0;
  y0 <- setz y0 root (dm_set_data y0r e);
  y1 <- setz y1 root (dm_set_data y1r d);
  Some (set_y1 (set_y0 s y0) y1).

(** The choices of the OpenMP runtime. *)
Record pv_sched := PvSched {
  pc_fwd : Z -> list (Z * Z); pc_t0 : list (Z * Z); pc_team : list Z; pc_zero : list (Z * Z); pc_mid : list (Z * Z);
  pc_t1 : list (Z * Z); pc_bwd : Z -> list (Z * Z); pc_den : list (Z * Z);
  pc_ordx : list (list (act (mem K))) -> list (act (mem K));
  pc_ordy : list (list (act (mem K))) -> list (act (mem K))
}.
Record pv_sched_ok (h : h2rep F K) (sc : pv_sched) : Prop := {
  pk_fwd : forall i n, h_minlevel h <= i <= h_maxlevel h -> ld (a_level_n (h_t h)) i = Some n -> omp_for (Z.min n (h_nthread h)) n (pc_fwd sc i);
  pk_t0 : omp_for (h_nthread h) (h_nnode h) (pc_t0 sc);
  pk_team : Permutation (pc_team sc) (zrange 0 (h_nthread h));
  pk_zero : omp_for (h_nthread h) (h_nnode h) (pc_zero sc);
  pk_mid : omp_for (h_nthread h) (h_nnode h) (pc_mid sc);
  pk_t1 : omp_for (h_nthread h) (h_nnode h) (pc_t1 sc);
  pk_bwd : forall i n, h_minlevel h <= i <= h_maxlevel h -> ld (a_level_n (h_t h)) i = Some n -> omp_for (Z.min n (h_nthread h)) n (pc_bwd sc i);
  pk_den : omp_for (h_nthread h) (h_nnode h) (pc_den sc);
  pk_ordx : forall ths, inter ths (pc_ordx sc ths);
  pk_ordy : forall ths, inter ths (pc_ordy sc ths)
}.

(** H2Pack_matvec_periodic.c:394-524 H2P_matvec_periodic; [jit] is BD_JIT.  The
    state is the working buffers and xT. *)
Definition matvec_periodic (jit : Z) (mv : bool) (h : h2rep F K) (c : pctx F K) (sc : pv_sched) (zx : pst F K * mem K) (x y : mem K) : option (pst F K * mem K * mem K) :=
  let '((s, ms), xT) := zx in
  let nt := mv && (jit =? 1) && (1 <? q_kdim c) in
  if negb (jit =? 1) then Some ((s, ms), xT, y) else                                                         (* 414-418 *)
  px <- gather_vector_elements (h_kms h) (h_fwd h) x 0 (s_px s) 0;                                           (* 422 *)
  py <- mzero c0 (s_py s) (h_kms h);                                                                         (* 429-434 *)
  yT <- mzero c0 (s_yT s) (h_kms h);
  let s := set_yT (set_py (set_px s px) py) yT in
  xT <- (if nt then transpose_dmat (pc_ordx sc) (h_nthread h) (q_npoint c) (q_kdim c) px (q_kdim c) xT (q_npoint c) else Some xT);
  let x_ := if nt then xT else px in
  s <- fwd_transform h (pc_fwd sc) s;                                                                        (* 446 *)
  s <- (if nt then run (map (fun ev => trans_y0_node h (fst ev) (snd ev)) (pc_t0 sc)) s else Some s);
  '(s, ms) <- pv_mid mv nt h c x_ (pc_team sc) (pc_zero sc) (pc_mid sc) (s, ms);                             (* 455 *)
  s <- (if nt then run (map (fun ev => trans_y1_node h (fst ev) (snd ev)) (pc_t1 sc)) s else Some s);
  s <- pv_root nt h c s;
  s <- bwd_transform h (pc_bwd sc) s;                                                                        (* 486 *)
  '(s, ms) <- pv_den mv nt h c x_ (pc_den sc) (s, ms);                                                       (* 494 *)
  '(s, xT) <- (if nt then                                                                                    (* 506-512 *)
      xT <- transpose_dmat (pc_ordy sc) (h_nthread h) (q_kdim c) (q_npoint c) (s_yT s) (q_npoint c) xT (q_kdim c);
      py <- zfor 0 (h_kms h) (fun i py => v <- ld xT i; madd py i v) (s_py s);
      Some (set_py s py, xT)
    else Some (s, xT));
  y <- gather_vector_elements (h_kms h) (h_bwd h) (s_py s) 0 y 0;                                            (* 518 *)
  Some ((s, ms), xT, y).
End PerMv.
Arguments pv_sched : clear implicits.
