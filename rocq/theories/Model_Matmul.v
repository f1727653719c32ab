(** Model of src/H2Pack_matmul.c (H2P_matmul and everything it calls).  Numbers
    are an arbitrary commutative ring; every array access is checked ([None]:
    outside the array or of an uninitialised cell).  Offsets such as i_vec * ldx
    are int in C and unbounded here.

    OpenMP: a worksharing loop is run in an arbitrary order, on arbitrary threads
    (see [omp_for] in Model_Matvec.v); iterations are atomic.  Timers and
    statistics are left out. *)
From Coq Require Import ZArith List Lia Bool Permutation.
From Verif Require Import Base Mem Num CRing Conc Model_Utils Model_Dense Model_CSR Model_Partition Model_Pairs Model_Matvec Model_Build.
Import ListNotations.
Open Scope Z_scope.

Section Matmul.
Context {F : num} {K : cring}.
Local Open Scope ring_K.

(** cblas_?gemm(RowMajor, ta, tb, m, n, k, 1, A, lda, B, ldb, beta, C, ldc) with
    beta 0 ([acc = false], C is not read) or 1, the matrices at offsets ao, bo, co
    of their arrays, as documented: C := op(A) op(B) + beta C.  Nothing is done
    when m or n is zero, or k is zero and beta is 1.  BLAS is not part of /repo. *)
Definition gemm (ta tb : bool) (m n k : Z) (A : mem K) (ao lda : Z) (B : mem K) (bo ldb : Z) (acc : bool) (C : mem K) (co ldc : Z) : option (mem K) :=
  if acc && (k =? 0) then Some C else
  zfor 0 m (fun i C => zfor 0 n (fun j C =>
    v <- zfor 0 k (fun p v =>
           a <- ld A (ao + (if ta then p * lda + i else i * lda + p))%Z;
           b <- ld B (bo + (if tb then j * ldb + p else p * ldb + j))%Z;
           Some (v + a * b)) c0;
    if acc then madd C (co + (i * ldc + j))%Z v else st C (co + (i * ldc + j))%Z v) C) C.

(** ** Forward transformation *)

(** H2Pack_matmul.c:16-40 H2P_matmul_init_y0. *)
Definition mm_init_y0 (h : h2rep F K) (nv : Z) (s : mvst K) : mvst K :=
  match s_y0 s with
  | Some _ => s
  | None => set_y0 s (map (fun U => if 0 <? dm_ncol U then dm_init (dm_ncol U) nv else dm_init 0 0) (h_U h))
  end.

(** H2Pack_matmul.c:76-108: the iteration of the forward sweep for [node]; mat_x
    is pmt_x. *)
Definition mm_fwd_node (h : h2rep F K) (nv ldx xrs : Z) (xt : bool) (node : Z) (s : mvst K) : option (mvst K) :=
  nc <- ld (a_nchild (h_t h)) node;
  U <- getz (h_U h) node;
  y0 <- s_y0 s;
  yn <- getz y0 node;
  let yn := dm_resize yn (dm_ncol U) nv in
  d <- (if nc =? 0 then
          srow <- ld (h_mcl h) (2 * node);
          erow <- ld (h_mcl h) (2 * node + 1);
          let nrow := (erow - srow + 1)%Z in
          gemm true xt (dm_ncol U) nv nrow (dm_data U) 0 (dm_ld U) (s_px s) (srow * xrs) ldx false (dm_data yn) 0 (dm_ld yn)
        else
          '(usrow, d) <- zfor 0 nc (fun k (x : Z * mem K) => let '(usrow, d) := x in
             c <- ld (a_children (h_t h)) (node * h_maxchild h + k);
             yk <- getz y0 c;
             d <- gemm true false (dm_ncol U) nv (dm_nrow yk) (dm_data U) (usrow * dm_ld U) (dm_ld U)
                    (dm_data yk) 0 (dm_ld yk) (negb (k =? 0)%Z) d 0 (dm_ld yn);
             Some ((usrow + dm_nrow yk)%Z, d)) (0, dm_data yn);
          Some d);
  y0' <- setz y0 node (dm_set_data yn d);
  Some (set_y0 s y0').

(** H2Pack_matmul.c:43-111 H2P_matmul_fwd_transform (loop from max_level down to
    min_adm_level). *)
Definition mm_fwd (h : h2rep F K) (nv ldx xrs : Z) (xt : bool) (sched : Z -> list (Z * Z)) (s : mvst K) : option (mvst K) :=
  let s := mm_init_y0 h nv s in
  zfor 0 (h_maxlevel h - h_minlevel h + 1) (fun k s =>
    let i := (h_maxlevel h - k)%Z in
    level_sweep h (fun _ node s => mm_fwd_node h nv ldx xrs xt node s) (sched i) i s) s.

(** ** Intermediate multiplication *)

(** H2Pack_matmul.c:114-138 H2P_matmul_init_y1. *)
Definition mm_init_y1 (h : h2rep F K) (nv : Z) (s : mvst K) : option (mvst K) :=
  let y1 := match s_y1 s with Some y1 => y1 | None => map (fun _ => dm_init 0 0) (h_U h) end in
  y1 <- zfor 0 (h_nnode h) (fun i (y1 : list (dmat K)) =>
    m <- getz y1 i;
    let m := mkDM (dm_nrow m) (dm_ncol m) 0 (dm_size m) (dm_data m) in
    n <- ld (h_nr h) i;
    U <- getz (h_U h) i;
    setz y1 i (if n =? 0 then m else dm_resize m (dm_ncol U) nv)) y1;
  Some (set_y1 s y1).

(** The sizes, leading dimension and transposition of a block as the loops below
    see it (H2Pack_matmul.c:182-193, 386-397). *)
Definition view (o : dmat K) : Z * Z * Z * bool :=
  if 0 <? dm_ld o then (dm_nrow o, dm_ncol o, dm_ld o, false) else (dm_ncol o, dm_nrow o, - dm_ld o, true)%Z.

(** A call of H2P_get_Bij_block / H2P_get_Dij_block: when the block does not
    exist the buffer keeps what it had. *)
Definition fetch (get : Z -> Z -> dmat K -> option (option (dmat K))) (n0 n1 : Z) (o : dmat K) : option (dmat K) :=
  r <- get n0 n1 o; Some (match r with Some o' => o' | None => o end).

(** H2Pack_matmul.c:173-238: pair (node0, node1) seen from node0.  The state is
    the thread's mat0, y1[node0] and mat_y. *)
Definition mm_mid_pair (h : h2rep F K) (get : Z -> Z -> dmat K -> option (option (dmat K))) (nv : Z) (y0 : list (dmat K)) (px : mem K)
    (ldx xrs : Z) (xt : bool) (ldy yrs : Z) (yt : bool) (node0 node1 : Z) (x : dmat K * dmat K * mem K) : option (dmat K * dmat K * mem K) :=
  let '(bij, y10, py) := x in
  level0 <- ld (a_level (h_t h)) node0;
  level1 <- ld (a_level (h_t h)) node1;
  y01 <- getz y0 node1;
  bij <- fetch get node0 node1 bij;
  let '(nrow, ncol, ldb, tr) := view bij in
  d <- (if level0 =? level1 then
          gemm tr false nrow nv ncol (dm_data bij) 0 ldb (dm_data y01) 0 (dm_ld y01) true (dm_data y10) 0 (dm_ld y10)
        else Some (dm_data y10));
  d <- (if level1 <? level0 then
          xs <- ld (h_mcl h) (node1 * 2);
          gemm tr xt nrow nv ncol (dm_data bij) 0 ldb px (xs * xrs) ldx true d 0 (dm_ld y10)
        else Some d);
  py <- (if level0 <? level1 then
           ys <- ld (h_mcl h) (node0 * 2);
           if yt then gemm true (negb tr) nv nrow ncol (dm_data y01) 0 (dm_ld y01) (dm_data bij) 0 ldb true py (ys * yrs) ldy
           else gemm tr false nrow nv ncol (dm_data bij) 0 ldb (dm_data y01) 0 (dm_ld y01) true py (ys * yrs) ldy
         else Some py);
  Some (bij, dm_set_data y10 d, py).

(** H2Pack_matmul.c:164-240: iteration [node0] on thread [tid]. *)
Definition mm_mid_node (h : h2rep F K) (get : Z -> Z -> dmat K -> option (option (dmat K))) (bm : bmeta) (nv ldx xrs : Z) (xt : bool) (ldy yrs : Z) (yt : bool)
    (tid node0 : Z) (s : mvst K) : option (mvst K) :=
  y0 <- s_y0 s;
  y1 <- s_y1 s;
  bij <- getz (s_m0 s) tid;
  y10 <- getz y1 node0;
  d <- mzero c0 (dm_data y10) (dm_nrow y10 * dm_ncol y10);
  a <- ld (bm_rowptr bm) node0;
  b <- ld (bm_rowptr bm) (node0 + 1);
  '(bij, y10, py) <- zfor a b (fun i x =>
      node1 <- ld (bm_colidx bm) i;
      mm_mid_pair h get nv y0 (s_px s) ldx xrs xt ldy yrs yt node0 node1 x) (bij, dm_set_data y10 d, s_py s);
  m0 <- setz (s_m0 s) tid bij;
  y1 <- setz y1 node0 y10;
  Some (set_py (set_y1 (set_m0 s m0) y1) py).

(** H2Pack_matmul.c:141-243 H2P_matmul_intmd_mult; [evs]: (thread, node0). *)
Definition mm_mid (h : h2rep F K) get (bm : bmeta) (nv ldx xrs : Z) (xt : bool) (ldy yrs : Z) (yt : bool) (evs : list (Z * Z)) (s : mvst K) : option (mvst K) :=
  s <- mm_init_y1 h nv s;
  run (map (fun ev => mm_mid_node h get bm nv ldx xrs xt ldy yrs yt (fst ev) (snd ev)) evs) s.

(** ** Backward transformation *)

(** H2Pack_matmul.c:279-346: the iteration of the backward sweep for [node] on
    thread [tid]. *)
Definition mm_bwd_node (h : h2rep F K) (nv ldy : Z) (yt : bool) (tid node : Z) (s : mvst K) : option (mvst K) :=
  nc <- ld (a_nchild (h_t h)) node;
  y1 <- s_y1 s;
  m <- getz y1 node;
  if dm_ld m =? 0 then Some s else
  U <- getz (h_U h) node;
  t0 <- getz (s_m0 s) tid;
  let t := dm_resize t0 (dm_nrow U) nv in
  td <- gemm false false (dm_nrow U) nv (dm_ncol U) (dm_data U) 0 (dm_ld U) (dm_data m) 0 (dm_ld m) false (dm_data t) 0 (dm_ld t);
  m0 <- setz (s_m0 s) tid (dm_set_data t td);
  let s := set_m0 s m0 in
  if nc =? 0 then
    si <- ld (h_mcl h) (2 * node);
    ei <- ld (h_mcl h) (2 * node + 1);
    let nrow := (ei - si + 1)%Z in
    py <- (if yt then
             zfor 0 nv (fun l py => zfor 0 nrow (fun k py =>
               v <- ld td (l + k * dm_ld t)%Z; madd py (l * ldy + (si + k))%Z v) py) (s_py s)
           else
             zfor 0 nrow (fun k py => zfor 0 nv (fun l py =>
               v <- ld td (k * dm_ld t + l)%Z; madd py ((si + k) * ldy + l)%Z v) py) (s_py s));
    Some (set_py s py)
  else
    '(idx, y1) <- zfor 0 nc (fun k (x : Z * list (dmat K)) => let '(idx, y1) := x in
       c <- ld (a_children (h_t h)) (node * h_maxchild h + k);
       Uc <- getz (h_U h) c;
       let len := dm_ncol Uc in
       mc <- getz y1 c;
       mc <- (if dm_ld mc =? 0 then
                let mc := dm_resize mc len nv in
                d <- copy_matrix len nv td (idx * dm_ld t) (dm_ld t) (dm_data mc) 0 (dm_ld mc);
                Some (dm_set_data mc d)
              else
                d <- zfor 0 len (fun k0 d => zfor 0 nv (fun l d =>
                       v <- ld td (idx * dm_ld t + k0 * dm_ld t + l)%Z; madd d (k0 * dm_ld mc + l)%Z v) d) (dm_data mc);
                Some (dm_set_data mc d));
       y1 <- setz y1 c mc;
       Some ((idx + len)%Z, y1)) (0, y1);
    Some (set_y1 s y1).

(** H2Pack_matmul.c:246-351 H2P_matmul_bwd_transform. *)
Definition mm_bwd (h : h2rep F K) (nv ldy : Z) (yt : bool) (sched : Z -> list (Z * Z)) (s : mvst K) : option (mvst K) :=
  zfor (h_minlevel h) (h_maxlevel h + 1) (fun i s => level_sweep h (mm_bwd_node h nv ldy yt) (sched i) i s) s.

(** ** Dense multiplication *)

(** H2Pack_matmul.c:379-416: pair (node0, node1) seen from node0. *)
Definition mm_den_pair (h : h2rep F K) (get : Z -> Z -> dmat K -> option (option (dmat K))) (nv : Z) (px : mem K)
    (ldx xrs : Z) (xt : bool) (ldy yo : Z) (node0 node1 : Z) (x : dmat K * mem K) : option (dmat K * mem K) :=
  let '(dij, py) := x in
  xs <- ld (h_mcl h) (2 * node1);
  dij <- fetch get node0 node1 dij;
  let '(nrow, ncol, ldd, tr) := view dij in
  py <- (if xt then gemm false (negb tr) nv nrow ncol px (xs * xrs) ldx (dm_data dij) 0 ldd true py yo ldy
         else gemm tr false nrow nv ncol (dm_data dij) 0 ldd px (xs * xrs) ldx true py yo ldy);
  Some (dij, py).

(** H2Pack_matmul.c:372-417: iteration [node0] on thread [tid]. *)
Definition mm_den_node (h : h2rep F K) (get : Z -> Z -> dmat K -> option (option (dmat K))) (dm : bmeta) (nv ldx xrs : Z) (xt : bool) (ldy yrs : Z)
    (tid node0 : Z) (s : mvst K) : option (mvst K) :=
  ys <- ld (h_mcl h) (2 * node0);
  dij <- getz (s_m0 s) tid;
  a <- ld (bm_rowptr dm) node0;
  b <- ld (bm_rowptr dm) (node0 + 1);
  '(dij, py) <- zfor a b (fun i x =>
      node1 <- ld (bm_colidx dm) i;
      mm_den_pair h get nv (s_px s) ldx xrs xt ldy (ys * yrs) node0 node1 x) (dij, s_py s);
  m0 <- setz (s_m0 s) tid dij;
  Some (set_py (set_m0 s m0) py).

(** H2Pack_matmul.c:354-419 H2P_matmul_dense_mult; y_trans is not used there. *)
Definition mm_den (h : h2rep F K) get (dm : bmeta) (nv ldx xrs : Z) (xt : bool) (ldy yrs : Z) (evs : list (Z * Z)) (s : mvst K) : option (mvst K) :=
  run (map (fun ev => mm_den_node h get dm nv ldx xrs xt ldy yrs (fst ev) (snd ev)) evs) s.

(** ** H2P_matmul *)

(** H2Pack_matmul.c:422-457 H2P_permute_matrix_row_forward / _backward: [col] is
    layout == CblasColMajor; the matrices are at offsets [xo], [po]. *)
Definition permute_rows (h : h2rep F K) (idx : list Z) (col : bool) (nv : Z) (x : mem K) (xo ldx : Z) (p : mem K) (po ldp : Z) : option (mem K) :=
  if col then zfor 0 nv (fun irow d => gather_vector_elements (h_kms h) idx x (xo + irow * ldx) d (po + irow * ldp)) p
  else zfor 0 (h_kms h) (fun irow d => j <- getz idx irow; mcpy d (po + irow * ldp) x (xo + j * ldx) nv) p.

(** H2Pack_matmul.c:511-531: step 2.  The iterations of the parallel loops write
    different cells; they are run in order here. *)
Definition mm_reset (col : bool) (kms nv ldp : Z) (py : mem K) : option (mem K) :=
  if col then zfor 0 nv (fun i py => zfor 0 kms (fun j py => st py (i * ldp + j)%Z c0) py) py
  else zfor 0 kms (fun i py => zfor 0 nv (fun j py => st py (i * ldp + j)%Z c0) py) py.

(** The choices of the OpenMP runtime during one batch. *)
Record mm_sched := MMSched {
  mc_fwd : Z -> list (Z * Z); mc_mid : list (Z * Z); mc_bwd : Z -> list (Z * Z); mc_den : list (Z * Z)
}.

(** H2Pack_matmul.c:500-580: one batch of columns, i_vec .. i_vec + nv - 1. *)
Definition mm_batch (h : h2rep F K) getB getD (bm dm : bmeta) (mmx : Z) (col : bool) (sc : mm_sched) (ivec nv : Z)
    (x : mem K) (ldx : Z) (ldy : Z) (s : mvst K) (y : mem K) : option (mvst K * mem K) :=
  let xcs := if col then ldx else 1 in
  let ycs := if col then ldy else 1 in
  let ldp := if col then h_kms h else mmx in
  let prs := if col then 1 else ldp in
  px <- permute_rows h (h_fwd h) col nv x (ivec * xcs) ldx (s_px s) 0 ldp;
  py <- mm_reset col (h_kms h) nv ldp (s_py s);
  s <- mm_fwd h nv ldp prs col (mc_fwd sc) (set_py (set_px s px) py);
  s <- mm_mid h getB bm nv ldp prs col ldp prs col (mc_mid sc) s;
  s <- mm_bwd h nv ldp col (mc_bwd sc) s;
  s <- mm_den h getD dm nv ldp prs col ldp prs (mc_den sc) s;
  y <- permute_rows h (h_bwd h) col nv (s_py s) 0 ldp y (ivec * ycs) ldy;
  Some (s, y).

(** H2Pack_matmul.c:460-583 H2P_matmul: the matrix returned in [y].  [mmx] is
    mm_max_n_vec, [sc b] the schedule of batch b; the number of batches is
    ceiling(n_vec / mm_max_n_vec). *)
Definition matmul (h : h2rep F K) getB getD (bm dm : bmeta) (mmx : Z) (col : bool) (sc : Z -> mm_sched) (n_vec : Z)
    (s : mvst K) (x : mem K) (ldx : Z) (y : mem K) (ldy : Z) : option (mvst K * mem K) :=
  let s := set_py (set_px s (alloc (h_kms h * mmx))) (alloc (h_kms h * mmx)) in
  zfor 0 ((n_vec + mmx - 1) / mmx) (fun b (z : mvst K * mem K) => let '(s, y) := z in
    let ivec := (b * mmx)%Z in
    let nv := if ivec + mmx <=? n_vec then mmx else (n_vec - ivec)%Z in
    mm_batch h getB getD bm dm mmx col (sc b) ivec nv x ldx ldy s y) (s, y).

(** All choices of a batch are ones OpenMP may make. *)
Record mm_sched_ok (h : h2rep F K) (sc : mm_sched) : Prop := {
  mo_fwd : forall i n, h_minlevel h <= i <= h_maxlevel h -> ld (a_level_n (h_t h)) i = Some n ->
    omp_for (Z.min n (h_nthread h)) n (mc_fwd sc i);
  mo_mid : omp_for (h_nthread h) (h_nnode h) (mc_mid sc);
  mo_bwd : forall i n, h_minlevel h <= i <= h_maxlevel h -> ld (a_level_n (h_t h)) i = Some n ->
    omp_for (Z.min n (h_nthread h)) n (mc_bwd sc i);
  mo_den : omp_for (h_nthread h) (h_nnode h) (mc_den sc)
}.
End Matmul.
