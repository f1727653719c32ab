(** Model of the ahead-of-time matvec: src/H2Pack_matvec.c (H2P_matvec with
    BD_JIT == 0 and everything it calls).  Numbers are an arbitrary commutative
    ring [K]; every array access is checked ([None]: outside the array or of an
    uninitialised cell).

    OpenMP: a parallel loop is run in an arbitrary order, on arbitrary threads,
    given by a schedule (see [omp_for] below); iterations are atomic (that their
    memory accesses do not conflict is proved separately, Props_Race.v C31).
    Timers, statistics and the print_timers output are left out. *)
From Coq Require Import ZArith List Lia Bool Permutation.
From Verif Require Import Base Mem Num CRing Conc Model_Utils Model_Dense Model_Partition.
Import ListNotations.
Open Scope Z_scope.

Section Matvec.
Context {F : num} {K : cring}.
Local Open Scope ring_K.

(** The fields of struct H2Pack (H2Pack_typedef.h) the matvec reads.  [h_adm],
    [h_inadm] are the arrays r_adm_pairs / r_inadm_pairs (HSS_ ones in HSS mode)
    as lists of pairs; [h_minlevel] is min_adm_level (HSS_min_adm_level);
    [h_nr] is node_n_r_adm (node_n_r_inadm in HSS mode). *)
Record h2rep := H2Rep {
  h_ptdim : Z; h_npoint : Z; h_kdim : Z;
  h_nthread : Z; h_nnode : Z; h_maxchild : Z; h_nleaf : Z; h_maxlevel : Z; h_minlevel : Z; h_kms : Z;
  h_t : tarrays F;                                  (* tree arrays *)
  h_mcl : mem Z;                                    (* mat_cluster *)
  h_U : list (dmat K);
  h_adm : list (Z * Z); h_inadm : list (Z * Z);
  h_nr : mem Z;
  h_Bnrow : mem Z; h_Bncol : mem Z; h_Bptr : mem Z; h_Bdata : mem K;
  h_Dnrow : mem Z; h_Dncol : mem Z; h_Dptr : mem Z; h_Ddata : mem K;
  h_Bblk : int_vec; h_D0blk : int_vec; h_D1blk : int_vec;
  h_fwd : list Z; h_bwd : list Z                    (* fwd_pmt_idx, bwd_pmt_idx *)
}.

(** The working buffers in struct H2Pack: y0, y1 (NULL before the first
    matvec), thread_buf[tid]->y, thread_buf[tid]->mat0, pmt_x, pmt_y, yT. *)
Record mvst := MvSt {
  s_y0 : option (list (dmat K)); s_y1 : option (list (dmat K));
  s_ty : list (mem K); s_m0 : list (dmat K);
  s_px : mem K; s_py : mem K; s_yT : mem K
}.
Definition set_y0 (s : mvst) v := MvSt (Some v) (s_y1 s) (s_ty s) (s_m0 s) (s_px s) (s_py s) (s_yT s).
Definition set_y1 (s : mvst) v := MvSt (s_y0 s) (Some v) (s_ty s) (s_m0 s) (s_px s) (s_py s) (s_yT s).
Definition set_ty (s : mvst) v := MvSt (s_y0 s) (s_y1 s) v (s_m0 s) (s_px s) (s_py s) (s_yT s).
Definition set_m0 (s : mvst) v := MvSt (s_y0 s) (s_y1 s) (s_ty s) v (s_px s) (s_py s) (s_yT s).
Definition set_px (s : mvst) v := MvSt (s_y0 s) (s_y1 s) (s_ty s) (s_m0 s) v (s_py s) (s_yT s).
Definition set_py (s : mvst) v := MvSt (s_y0 s) (s_y1 s) (s_ty s) (s_m0 s) (s_px s) v (s_yT s).
Definition set_yT (s : mvst) v := MvSt (s_y0 s) (s_y1 s) (s_ty s) (s_m0 s) (s_px s) (s_py s) v.

(** ** Numerical kernels *)

(** [m[i] += v]. *)
Definition madd (m : mem K) (i : Z) (v : K) : option (mem K) := c <- ld m i; st m i (c + v).

(** H2Pack_matvec.c:26-65 CBLAS_BI_GEMV.  The matrix is at offset [moff] of
    [mat]; [in0], [in1] read the input vectors; [add0 i v], [add1 j v] perform
    x_out_0[i] += v and x_out_1[j] += v (the two outputs may be parts of the same
    array).  The simd reductions run in order. *)
Definition bi_gemv {St} (nrow ncol : Z) (mat : mem K) (moff ldm : Z) (in0 in1 : Z -> option K)
    (add0 add1 : Z -> K -> St -> option St) (s : St) : option St :=
  s <- zfor 0 (nrow / 2) (fun i2 s =>
    let i := (2 * i2)%Z in
    a0 <- in1 i;
    a1 <- in1 (i + 1)%Z;
    '(sum0, sum1, s) <- zfor 0 ncol (fun j (x : K * K * St) => let '(sum0, sum1, s) := x in
       xj <- in0 j;
       m0 <- ld mat (moff + i * ldm + j)%Z;
       m1 <- ld mat (moff + (i + 1) * ldm + j)%Z;
       s <- add1 j (a0 * m0 + a1 * m1) s;
       Some (sum0 + m0 * xj, sum1 + m1 * xj, s)) (c0, c0, s);
    s <- add0 i sum0 s;
    add0 (i + 1)%Z sum1 s) s;
  zfor (2 * (nrow / 2)) nrow (fun i s =>
    a <- in1 i;
    '(sum, s) <- zfor 0 ncol (fun j (x : K * St) => let '(sum, s) := x in
       m <- ld mat (moff + i * ldm + j)%Z;
       xj <- in0 j;
       s <- add1 j (a * m) s;
       Some (sum + m * xj, s)) (c0, s);
    add0 i sum s) s.

(** cblas_?gemv(RowMajor, Trans, m, n, 1, A, lda, x, 1, beta, y, 1) with beta 0
    ([acc = false], y is not read) or 1, as documented: y := A^T x + beta y.
    Returns at once when m or n is zero, like the reference implementation (and
    OpenBLAS), leaving y as it is.  BLAS is not part of /repo. *)
Definition gemv_t (m n : Z) (A : mem K) (aoff lda : Z) (x : Z -> option K) (acc : bool) (y : mem K) : option (mem K) :=
  if (m =? 0) || (n =? 0) then Some y else
  zfor 0 n (fun c y =>
    v <- zfor 0 m (fun r v => a <- ld A (aoff + r * lda + c)%Z; b <- x r; Some (v + a * b)) c0;
    if acc then madd y c v else st y c v) y.

(** cblas_?gemv(RowMajor, NoTrans, m, n, 1, A, lda, x, 1, beta, y, 1), y at
    offset [yoff]; same remarks. *)
Definition gemv_n (m n : Z) (A : mem K) (aoff lda : Z) (x : Z -> option K) (acc : bool) (y : mem K) (yoff : Z) : option (mem K) :=
  if (m =? 0) || (n =? 0) then Some y else
  zfor 0 m (fun r y =>
    v <- zfor 0 n (fun c v => a <- ld A (aoff + r * lda + c)%Z; b <- x c; Some (v + a * b)) c0;
    if acc then madd y (yoff + r)%Z v else st y (yoff + r)%Z v) y.

(** ** Forward transformation *)

(** H2Pack_matvec.c:68-92 H2P_matvec_init_y0. *)
Definition init_y0 (h : h2rep) (s : mvst) : mvst :=
  match s_y0 s with
  | Some _ => s
  | None => set_y0 s (map (fun U => if 0 <? dm_ncol U then dm_init (dm_ncol U) 1 else dm_init 0 0) (h_U h))
  end.

(** H2Pack_matvec.c:127-161: the iteration of the forward sweep for [node]. *)
Definition fwd_node (h : h2rep) (node : Z) (s : mvst) : option mvst :=
  nc <- ld (a_nchild (h_t h)) node;
  U <- getz (h_U h) node;
  y0 <- s_y0 s;
  yn <- getz y0 node;
  let yn := dm_resize yn (dm_ncol U) 1 in
  d <- (if nc =? 0 then
          xs <- ld (h_mcl h) (node * 2);
          gemv_t (dm_nrow U) (dm_ncol U) (dm_data U) 0 (dm_ld U) (fun r => ld (s_px s) (xs + r)) false (dm_data yn)
        else
          '(srow, d) <- zfor 0 nc (fun k (x : Z * mem K) => let '(srow, d) := x in
             c <- ld (a_children (h_t h)) (node * h_maxchild h + k);
             yk <- getz y0 c;
             d <- gemv_t (dm_nrow yk) (dm_ncol U) (dm_data U) (srow * dm_ld U) (dm_ld U)
                    (fun r => ld (dm_data yk) r) (negb (k =? 0)%Z) d;
             Some ((srow + dm_nrow yk)%Z, d)) (0, dm_data yn);
          Some d);
  y0' <- setz y0 node (dm_set_data yn d);
  Some (set_y0 s y0').

(** One level of a sweep over the tree: the iterations j of the level's nodes
    in the order, and on the threads, of the schedule. *)
Definition level_sweep (h : h2rep) (item : Z -> Z -> mvst -> option mvst) (sched : list (Z * Z)) (i : Z) (s : mvst) : option mvst :=
  run (map (fun (ev : Z * Z) s => let '(tid, j) := ev in
         node <- ld (a_level_nodes (h_t h)) (i * h_nleaf h + j); item tid node s) sched) s.

(** H2Pack_matvec.c:95-177 H2P_matvec_fwd_transform (loop from max_level down to
    min_adm_level). *)
Definition fwd_transform (h : h2rep) (sched : Z -> list (Z * Z)) (s : mvst) : option mvst :=
  let s := init_y0 h s in
  zfor 0 (h_maxlevel h - h_minlevel h + 1) (fun k s =>
    let i := (h_maxlevel h - k)%Z in
    level_sweep h (fun _ node s => fwd_node h node s) (sched i) i s) s.

(** ** Intermediate multiplication *)

(** H2Pack_matvec.c:240-257: first part of H2P_matvec_init_y1. *)
Definition init_y1_shape (h : h2rep) (s : mvst) : option mvst :=
  let y1 := match s_y1 s with Some y1 => y1 | None => map (fun _ => dm_init 0 0) (h_U h) end in
  y1 <- zfor 0 (h_nnode h) (fun i (y1 : list (dmat K)) =>
    m <- getz y1 i;
    let m := mkDM (dm_nrow m) (dm_ncol m) 0 (dm_size m) (dm_data m) in
    n <- ld (h_nr h) i;
    U <- getz (h_U h) i;
    setz y1 i (if n =? 0 then m else dm_resize m (h_nthread h) (dm_ncol U))) y1;
  Some (set_y1 s y1).

(** H2Pack_matvec.c:258-268: what thread [tid] does in the second part. *)
Definition init_y1_zero (h : h2rep) (tid : Z) (s : mvst) : option mvst :=
  y1 <- s_y1 s;
  y1 <- zfor 0 (h_nnode h) (fun i (y1 : list (dmat K)) =>
    m <- getz y1 i;
    if dm_ld m =? 0 then Some y1 else
    d <- zfor 0 (dm_ncol m) (fun k d => st d (tid * dm_ncol m + k)%Z c0) (dm_data m);
    setz y1 i (dm_set_data m d)) y1;
  Some (set_y1 s y1).

(** H2Pack_matvec.c:234-269 H2P_matvec_init_y1.  The parallel region has no
    num_threads clause: [team] lists its threads in the order they run. *)
Definition init_y1 (h : h2rep) (team : list Z) (s : mvst) : option mvst :=
  s <- init_y1_shape h s;
  run (map (init_y1_zero h) team) s.

(** H2Pack_matvec.c:285-296: iteration [i] of H2P_matvec_sum_y1_thread. *)
Definition sum_y1_node (h : h2rep) (i : Z) (s : mvst) : option mvst :=
  y1 <- s_y1 s;
  m <- getz y1 i;
  if dm_ld m =? 0 then Some s else
  let ncol := dm_ncol m in
  d <- zfor 1 (h_nthread h) (fun j d =>
    zfor 0 ncol (fun k d => v <- ld d (j * ncol + k)%Z; madd d k v) d) (dm_data m);
  y1 <- setz y1 i (dm_set_data m d);
  Some (set_y1 s y1).

(** [y1[node]->data[off + k] += v] and [thread_buf[tid]->y[off + k] += v]. *)
Definition add_y1 (node off k : Z) (v : K) (s : mvst) : option mvst :=
  y1 <- s_y1 s;
  m <- getz y1 node;
  d <- madd (dm_data m) (off + k)%Z v;
  y1 <- setz y1 node (dm_set_data m d);
  Some (set_y1 s y1).
Definition add_ty (tid off k : Z) (v : K) (s : mvst) : option mvst :=
  m <- getz (s_ty s) tid;
  d <- madd m (off + k)%Z v;
  ty <- setz (s_ty s) tid d;
  Some (set_ty s ty).

(** [y0[node]->data[k]]. *)
Definition y0_at (s : mvst) (node k : Z) : option K :=
  y0 <- s_y0 s; m <- getz y0 node; ld (dm_data m) k.

(** H2Pack_matvec.c:324-379: pair [i] of H2P_matvec_intmd_mult_AOT_task_block
    on thread [tid]. *)
Definition mid_pair (h : h2rep) (tid i : Z) (s : mvst) : option mvst :=
  '(node0, node1) <- getz (h_adm h) i;
  level0 <- ld (a_level (h_t h)) node0;
  level1 <- ld (a_level (h_t h)) node1;
  ptr <- ld (h_Bptr h) i;
  nrow <- ld (h_Bnrow h) i;
  ncol <- ld (h_Bncol h) i;
  if level0 =? level1 then
    y1 <- s_y1 s;
    m0 <- getz y1 node0;
    m1 <- getz y1 node1;
    bi_gemv nrow ncol (h_Bdata h) ptr ncol (y0_at s node1) (y0_at s node0)
      (add_y1 node0 (tid * dm_ncol m0)) (add_y1 node1 (tid * dm_ncol m1)) s
  else if level1 <? level0 then
    vs1 <- ld (h_mcl h) (node1 * 2);
    y1 <- s_y1 s;
    m0 <- getz y1 node0;
    bi_gemv nrow ncol (h_Bdata h) ptr ncol (fun k => ld (s_px s) (vs1 + k)) (y0_at s node0)
      (add_y1 node0 (tid * dm_ncol m0)) (add_ty tid vs1) s
  else
    vs0 <- ld (h_mcl h) (node0 * 2);
    y1 <- s_y1 s;
    m1 <- getz y1 node1;
    bi_gemv nrow ncol (h_Bdata h) ptr ncol (y0_at s node1) (fun k => ld (s_px s) (vs0 + k))
      (add_ty tid vs0) (add_y1 node1 (tid * dm_ncol m1)) s.

(** H2Pack_matvec.c:385-437 H2P_matvec_intmd_mult_AOT: [evs] are the pairs in the
    order, and on the threads, they are handled. *)
Definition intmd_mult (h : h2rep) (team : list Z) (evs : list (Z * Z)) (sums : list (Z * Z)) (s : mvst) : option mvst :=
  s <- init_y1 h team s;
  s <- run (map (fun ev => mid_pair h (fst ev) (snd ev)) evs) s;
  run (map (fun ev => sum_y1_node h (snd ev)) sums) s.

(** ** Backward transformation *)

(** H2Pack_matvec.c:795-842: the iteration of the backward sweep for [node] on
    thread [tid]. *)
Definition bwd_node (h : h2rep) (tid node : Z) (s : mvst) : option mvst :=
  nc <- ld (a_nchild (h_t h)) node;
  y1 <- s_y1 s;
  m <- getz y1 node;
  if dm_ld m =? 0 then Some s else
  U <- getz (h_U h) node;
  t0 <- getz (s_m0 s) tid;
  let t := dm_resize t0 (dm_nrow U) 1 in
  td <- gemv_n (dm_nrow U) (dm_ncol U) (dm_data U) 0 (dm_ld U) (fun c => ld (dm_data m) c) false (dm_data t) 0;
  m0 <- setz (s_m0 s) tid (dm_set_data t td);
  let s := set_m0 s m0 in
  if nc =? 0 then
    si <- ld (h_mcl h) (2 * node);
    ei <- ld (h_mcl h) (2 * node + 1);
    py <- zfor 0 (ei - si + 1) (fun k py => v <- ld td k; madd py (si + k)%Z v) (s_py s);
    Some (set_py s py)
  else
    '(idx, y1) <- zfor 0 nc (fun k (x : Z * list (dmat K)) => let '(idx, y1) := x in
       c <- ld (a_children (h_t h)) (node * h_maxchild h + k);
       Uc <- getz (h_U h) c;
       let len := dm_ncol Uc in
       mc <- getz y1 c;
       mc <- (if dm_ld mc =? 0 then
                let mc := dm_resize mc len 1 in
                d <- mcpy (dm_data mc) 0 td idx len;
                Some (dm_set_data mc d)
              else
                d <- zfor 0 len (fun l d => v <- ld td (idx + l)%Z; madd d l v) (dm_data mc);
                Some (dm_set_data mc d));
       y1 <- setz y1 c mc;
       Some ((idx + len)%Z, y1)) (0, y1);
    Some (set_y1 s y1).

(** H2Pack_matvec.c:767-861 H2P_matvec_bwd_transform (loop from min_adm_level to
    max_level). *)
Definition bwd_transform (h : h2rep) (sched : Z -> list (Z * Z)) (s : mvst) : option mvst :=
  zfor (h_minlevel h) (h_maxlevel h + 1) (fun i s => level_sweep h (bwd_node h) (sched i) i s) s.

(** ** Dense multiplication *)

(** H2Pack_matvec.c:880-897: block [i] of H2P_matvec_dense_mult0_AOT_task_block
    on thread [tid]. *)
Definition dense_diag (h : h2rep) (tid i : Z) (s : mvst) : option mvst :=
  node <- ld (a_height_nodes (h_t h)) i;
  vs <- ld (h_mcl h) (node * 2);
  ptr <- ld (h_Dptr h) i;
  nrow <- ld (h_Dnrow h) i;
  ncol <- ld (h_Dncol h) i;
  y <- getz (s_ty s) tid;
  y <- gemv_n nrow ncol (h_Ddata h) ptr ncol (fun c => ld (s_px s) (vs + c)) true y vs;
  ty <- setz (s_ty s) tid y;
  Some (set_ty s ty).

(** H2Pack_matvec.c:914-933: pair [i] of H2P_matvec_dense_mult1_AOT_task_block
    on thread [tid]. *)
Definition dense_off (h : h2rep) (tid i : Z) (s : mvst) : option mvst :=
  '(node0, node1) <- getz (h_inadm h) i;
  vs0 <- ld (h_mcl h) (2 * node0);
  vs1 <- ld (h_mcl h) (2 * node1);
  ptr <- ld (h_Dptr h) (h_nleaf h + i);
  nrow <- ld (h_Dnrow h) (h_nleaf h + i);
  ncol <- ld (h_Dncol h) (h_nleaf h + i);
  bi_gemv nrow ncol (h_Ddata h) ptr ncol (fun k => ld (s_px s) (vs1 + k)) (fun k => ld (s_px s) (vs0 + k))
    (add_ty tid vs0) (add_ty tid vs1) s.

(** H2Pack_matvec.c:938-998 H2P_matvec_dense_mult_AOT: [evs] are the blocks in
    the order, and on the threads, they are handled ([false]: diagonal block,
    [true]: inadmissible pair). *)
Definition dense_mult (h : h2rep) (evs : list (Z * (bool * Z))) (s : mvst) : option mvst :=
  run (map (fun (ev : Z * (bool * Z)) s => let '(tid, (isoff, i)) := ev in
         if (isoff : bool) then dense_off h tid i s else dense_diag h tid i s) evs) s.

(** ** H2P_matvec *)

(** H2Pack_matvec.c:1196-1211: step 2. *)
Definition reset_y (h : h2rep) (s : mvst) : option mvst :=
  ty <- zfor 0 (h_nthread h) (fun tid (ty : list (mem K)) =>
          y <- getz ty tid;
          y <- mzero c0 y (h_kms h);
          setz ty tid y) (s_ty s);
  py <- mzero c0 (s_py s) (h_kms h);
  yT <- mzero c0 (s_yT s) (h_kms h);
  Some (set_yT (set_py (set_ty s ty) py) yT).

(** H2Pack_matvec.c:1247-1258: what thread [tid] does in step 7. *)
Definition reduce_y (h : h2rep) (tid : Z) (s : mvst) : option mvst :=
  '(spos, len) <- calc_block_spos_len (h_kms h) (h_nthread h) tid;
  py <- zfor 0 (h_nthread h) (fun t py =>
    src <- getz (s_ty s) t;
    zfor spos (spos + len) (fun i py => v <- ld src i; madd py i v) py) (s_py s);
  Some (set_py s py).

(** The choices of the OpenMP runtime during one matvec. *)
Record schedule := Sched {
  sc_fwd : Z -> list (Z * Z);          (* forward sweep, per level: (thread, iteration) *)
  sc_team : list Z;                    (* team of the region in init_y1 *)
  sc_mid : list (Z * Z);               (* (thread, pair) *)
  sc_sum : list (Z * Z);               (* (thread, node) *)
  sc_bwd : Z -> list (Z * Z);
  sc_den : list (Z * (bool * Z));      (* (thread, block) *)
  sc_red : list Z                      (* threads of the final reduction *)
}.

(** H2Pack_matvec.c:1162-1284 H2P_matvec with BD_JIT == 0 (so need_trans == 0):
    the vector returned in [y]. *)
Definition matvec (h : h2rep) (sc : schedule) (s : mvst) (x y : mem K) : option (mvst * mem K) :=
  px <- gather_vector_elements (h_kms h) (h_fwd h) x 0 (s_px s) 0;
  s <- reset_y h (set_px s px);
  s <- fwd_transform h (sc_fwd sc) s;
  s <- intmd_mult h (sc_team sc) (sc_mid sc) (sc_sum sc) s;
  s <- bwd_transform h (sc_bwd sc) s;
  s <- dense_mult h (sc_den sc) s;
  s <- run (map (reduce_y h) (sc_red sc)) s;
  y <- gather_vector_elements (h_kms h) (h_bwd h) (s_py s) 0 y 0;
  Some (s, y).

(** ** Which schedules OpenMP may produce *)

(** Iterations 0 .. n-1 of a worksharing loop, each once, on threads of a team
    of [nth], in any order. *)
Definition omp_for (nth n : Z) (l : list (Z * Z)) : Prop :=
  Forall (fun ev => 0 <= fst ev < nth) l /\ Permutation (map snd l) (zrange 0 n).

(** The blocks handled by each thread (H2Pack_matvec.c:411-420, 962-989): block
    tid on thread tid if there are no more blocks than threads, else any
    distribution of all blocks. *)
Definition block_assignment (nth nblk : Z) (asg : list (list Z)) : Prop :=
  if nblk <=? nth then asg = map (fun t => if t <? nblk then [t] else []) (zrange 0 nth)
  else zlen asg = nth /\ Permutation (concat asg) (zrange 0 nblk).

(** The items of block [b]: blk[b] .. blk[b+1]-1 (H2Pack_matvec.c:321-323, 878-880, 912-914). *)
Definition block_items (blk : int_vec) (b : Z) : list Z :=
  match ld (iv_data blk) b, ld (iv_data blk) (b + 1) with
  | Some lo, Some hi => zrange lo hi
  | _, _ => []
  end.

(** Pair [a] with its position. *)
Definition number {A} (l : list A) : list (Z * A) := combine (zrange 0 (zlen l)) l.

(** The items of each thread's blocks, tagged with the thread. *)
Definition thread_items (blk : int_vec) (asg : list (list Z)) : list (list (Z * Z)) :=
  map (fun '(t, bs) => map (fun i => (t, i)) (concat (map (block_items blk) bs))) (number asg).

(** Interleavings of the threads' work in the intermediate multiplication. *)
Definition mid_schedule (h : h2rep) (l : list (Z * Z)) : Prop :=
  exists asg, block_assignment (h_nthread h) (iv_len (h_Bblk h) - 1) asg /\ inter (thread_items (h_Bblk h) asg) l.

(** The same for the dense multiplication: each thread does its diagonal blocks
    and then, without waiting for others, its inadmissible pairs. *)
Definition den_schedule (h : h2rep) (l : list (Z * (bool * Z))) : Prop :=
  exists a0 a1, block_assignment (h_nthread h) (iv_len (h_D0blk h) - 1) a0 /\
    block_assignment (h_nthread h) (iv_len (h_D1blk h) - 1) a1 /\
    inter (map (fun '(l0, l1) => map (fun '(t, i) => (t, (false, i))) l0 ++ map (fun '(t, i) => (t, (true, i))) l1)
             (combine (thread_items (h_D0blk h) a0) (thread_items (h_D1blk h) a1))) l.

(** All choices are ones OpenMP may make; the team of init_y1's region is
    assumed to have n_thread threads. *)
Record schedule_ok (h : h2rep) (sc : schedule) : Prop := {
  so_fwd : forall i n, h_minlevel h <= i <= h_maxlevel h -> ld (a_level_n (h_t h)) i = Some n ->
    omp_for (Z.min n (h_nthread h)) n (sc_fwd sc i);
  so_team : Permutation (sc_team sc) (zrange 0 (h_nthread h));
  so_mid : mid_schedule h (sc_mid sc);
  so_sum : omp_for (h_nthread h) (h_nnode h) (sc_sum sc);
  so_bwd : forall i n, h_minlevel h <= i <= h_maxlevel h -> ld (a_level_n (h_t h)) i = Some n ->
    omp_for (Z.min n (h_nthread h)) n (sc_bwd sc i);
  so_den : den_schedule h (sc_den sc);
  so_red : Permutation (sc_red sc) (zrange 0 (h_nthread h))
}.

End Matvec.
Arguments h2rep : clear implicits.
Arguments mvst : clear implicits.
