(** Model of the just-in-time matvec: src/H2Pack_matvec.c, H2P_matvec with
    BD_JIT == 1, where the B and D blocks are evaluated while they are applied,
    and of H2P_build with BD_JIT == 1.  Conventions as in Model_Matvec.v. *)
From Coq Require Import ZArith QArith List Lia Bool Permutation.
From Verif Require Import Base Mem Num CRing Conc Model_Utils Model_Dense Model_Partition Model_Pairs Model_Matvec Model_Build.
Import ListNotations.
Open Scope Z_scope.

Section JIT.
Context {F : num} {K : cring}.
Local Open Scope ring_K.
Variable kern : list F -> list F -> Z -> Z -> K.
(** SIMD_LEN (ASTER/include) and sizeof(DTYPE). *)
Variables (simd esz : Z).

(** What the JIT functions read of struct H2Pack besides the fields in [h2rep]:
    xpt_dim, coord, J_coord; krnl_bimv != NULL. *)
Record jctx := JCtx { jx_dim : Z; jx_coord : mem F; jx_Jc : list (dmat F); jx_bimv : bool }.

(** [m[i] += v] where m[i] may be indeterminate (it then stays so). *)
Definition madd_any (m : mem K) (i : Z) (v : K) : option (mem K) :=
  match getz m i with
  | Some (Some c) => st m i (c + v)
  | Some None => Some m
  | None => None
  end.

(** H2Pack_matvec.c:26-65 CBLAS_BI_GEMV once more, with the matrix read from the
    state: in the diagonal blocks x_out_1 is the buffer that holds the matrix. *)
Definition bi_gemv_g {St} (nrow ncol : Z) (rd : Z -> St -> option K) (ldm : Z) (in0 in1 : Z -> option K)
    (add0 add1 : Z -> K -> St -> option St) (s : St) : option St :=
  s <- zfor 0 (nrow / 2) (fun i2 s =>
    let i := (2 * i2)%Z in
    a0 <- in1 i;
    a1 <- in1 (i + 1)%Z;
    '(sum0, sum1, s) <- zfor 0 ncol (fun j (x : K * K * St) => let '(sum0, sum1, s) := x in
       xj <- in0 j;
       m0 <- rd (i * ldm + j)%Z s;
       m1 <- rd ((i + 1) * ldm + j)%Z s;
       s <- add1 j (a0 * m0 + a1 * m1) s;
       Some (sum0 + m0 * xj, sum1 + m1 * xj, s)) (c0, c0, s);
    s <- add0 i sum0 s;
    add0 (i + 1)%Z sum1 s) s;
  zfor (2 * (nrow / 2)) nrow (fun i s =>
    a <- in1 i;
    '(sum, s) <- zfor 0 ncol (fun j (x : K * St) => let '(sum, s) := x in
       m <- rd (i * ldm + j)%Z s;
       xj <- in0 j;
       s <- add1 j (a * m) s;
       Some (sum + m * xj, s)) (c0, s);
    add0 i sum s) s.

(** H2Pack_matvec.c:558-582 H2P_krnl_eval_bimv; the state is (matbuf, rest).
    [None] when the loop has not ended after [fuel] iterations. *)
Fixpoint eval_bimv_loop {St} (dim kdim : Z) (cs0 : mem F) (o0 ld0 n0 : Z) (cs1 : mem F) (o1 ld1 n1 : Z) (in0 in1 : Z -> option K)
    (add0 add1 : Z -> K -> mem K * St -> option (mem K * St)) (blk : Z) (fuel : nat) (blk_s : Z) (x : mem K * St) : option (mem K * St) :=
  if blk_s <? n0 then
    match fuel with
    | O => None
    | S fuel =>
      let npt := if n0 <? blk_s + blk then (n0 - blk_s)%Z else blk in
      let ldm := (n1 * kdim)%Z in
      m <- krnl_eval kern dim kdim cs0 (o0 + blk_s) ld0 npt cs1 o1 ld1 n1 (fst x) 0 ldm;
      x <- bi_gemv_g (npt * kdim) ldm (fun k (y : mem K * St) => ld (fst y) k) ldm in0 (fun i => in1 (blk_s * kdim + i)%Z)
             (fun i => add0 (blk_s * kdim + i)%Z) add1 (m, snd x);
      eval_bimv_loop dim kdim cs0 o0 ld0 n0 cs1 o1 ld1 n1 in0 in1 add0 add1 blk fuel (blk_s + blk) x
    end
  else Some x.
(** An iteration that makes progress handles at least one point: if n0 iterations
    do not suffice the loop never ends. *)
Definition krnl_eval_bimv {St} dim kdim cs0 o0 ld0 n0 cs1 o1 ld1 n1 in0 in1 (add0 add1 : Z -> K -> mem K * St -> option (mem K * St)) blk x :=
  eval_bimv_loop dim kdim cs0 o0 ld0 n0 cs1 o1 ld1 n1 in0 in1 add0 add1 blk (Z.to_nat n0) 0 x.

(** H2Pack_typedef.h:56-85 kernel_bimv_fptr: the contract of the user's
    krnl_bimv.  The vectors are krnl_dim-by-ld matrices. *)
Definition krnl_bimv (dim kdim : Z) (c0s : mem F) (ld0 n0 : Z) (c1s : mem F) (ld1 n1 : Z) (in0 in1 out0 out1 : mem K) : option (mem K * mem K) :=
  zfor 0 n0 (fun i (o : mem K * mem K) =>
    p <- point dim c0s 0 ld0 i;
    zfor 0 n1 (fun j (o : mem K * mem K) =>
      q <- point dim c1s 0 ld1 j;
      zfor 0 kdim (fun a (o : mem K * mem K) => zfor 0 kdim (fun b (o : mem K * mem K) => let '(o0, o1) := o in
        x0 <- ld in0 (b * ld1 + j)%Z;
        x1 <- ld in1 (a * ld0 + i)%Z;
        o0 <- madd o0 (a * ld0 + i)%Z (kern p q a b * x0);
        o1 <- madd o1 (b * ld1 + j)%Z (kern p q a b * x1);
        Some (o0, o1)) o) o) o) (out0, out1).

(** H2Pack_matvec.c:478: a multiple of SIMD_LEN. *)
Definition ext_len (n : Z) : Z := ((n + simd - 1) / simd * simd)%Z.

(** H2Pack_matvec.c:490-501, 506-520: [rows] rows of [n] entries read from [rd]
    (leading dimension [lds]), padded with [zero] to [next] entries each.  The
    destination is a part of workbuf; its cells start out uninitialised. *)
Definition pad_rows {A} (zero : A) (rows n next : Z) (rd : Z -> option A) (lds : Z) : option (mem A) :=
  zfor 0 rows (fun i m =>
    m <- zfor 0 n (fun j m => v <- rd (i * lds + j)%Z; st m (i * next + j)%Z v) m;
    zfor n next (fun j m => st m (i * next + j)%Z zero) m) (alloc (rows * next)).

(** H2Pack_matvec.c:463-539 H2P_ext_krnl_bimv.  The parts of workbuf are separate
    arrays here; that together they fit in it is checked. [add0 k v]: x_out_0[k] += v. *)
Definition ext_krnl_bimv {St} (dim kdim : Z) (cs0 : mem F) (o0 ld0 n0 : Z) (cs1 : mem F) (o1 ld1 n1 : Z)
    (in0 in1 : Z -> option K) (ldi0 ldi1 ldo0 ldo1 : Z) (add0 add1 : Z -> K -> St -> option St) (s : St) : option St :=
  let n0e := ext_len n0 in
  let n1e := ext_len n1 in
  if ((dim + kdim) * (n0e + n1e) * 2 <? dim * n0e + dim * n1e + n1e * kdim + n0e * kdim + n0e * kdim + n1e * kdim)%Z then None else
  trg <- pad_rows (nlit 0%Q) dim n0 n0e (fun k => ld cs0 (o0 + k)) ld0;
  src <- pad_rows (nlit 0%Q) dim n1 n1e (fun k => ld cs1 (o1 + k)) ld1;
  x0 <- pad_rows c0 kdim n1 n1e in0 ldi0;
  x1 <- pad_rows c0 kdim n0 n0e in1 ldi1;
  out0 <- mzero c0 (alloc (n0e * kdim)) (n0e * kdim);
  out1 <- mzero c0 (alloc (n1e * kdim)) (n1e * kdim);
  '(out0, out1) <- krnl_bimv dim kdim trg n0e n0e src n1e n1e x0 x1 out0 out1;
  s <- zfor 0 kdim (fun i s => zfor 0 n0 (fun j s => v <- ld out0 (i * n0e + j)%Z; add0 (i * ldo0 + j)%Z v s) s) s;
  zfor 0 kdim (fun i s => zfor 0 n1 (fun j s => v <- ld out1 (i * n1e + j)%Z; add1 (i * ldo1 + j)%Z v s) s) s.

(** H2Pack_matvec.c:638-639, 1064-1065, 1115-1116: rows evaluated at a time, in
    points.  [None]: division by zero. *)
Definition jit_blk (kdim ncol : Z) : option Z :=
  if ncol =? 0 then None else Some (131072 / (esz * ncol) / kdim)%Z.

(** One of the two coordinate arrays a block is evaluated on: data, offset,
    leading dimension, number of points. *)
Definition skel_side (c : jctx) (node : Z) : option (mem F * Z * Z * Z) :=
  j <- getz (jx_Jc c) node; Some (dm_data j, 0, dm_ncol j, dm_ncol j).
Definition pt_side (h : h2rep F K) (c : jctx) (node : Z) : option (mem F * Z * Z * Z) :=
  s <- ld (a_cluster (h_t h)) (node * 2);
  e <- ld (a_cluster (h_t h)) (node * 2 + 1);
  Some (jx_coord c, s, h_npoint h, (e - s + 1)%Z).

(** thread_buf[tid]->mat0 resized; and put back with other contents. *)
Definition get_m0 (tid nrow ncol : Z) (s : mvst K) : option (dmat K) := m <- getz (s_m0 s) tid; Some (dm_resize m nrow ncol).
Definition put_m0 (tid : Z) (m : dmat K) (s : mvst K) : option (mvst K) := l <- setz (s_m0 s) tid m; Some (set_m0 s l).

(** The call of H2P_ext_krnl_bimv or H2P_krnl_eval_bimv for the two sides. *)
Definition apply_block (h : h2rep F K) (c : jctx) (sd0 sd1 : mem F * Z * Z * Z) (in0 in1 : Z -> option K) (ldi0 ldi1 ldo0 ldo1 : Z)
    (add0 add1 : Z -> K -> mvst K -> option (mvst K)) (tid blk : Z) (s : mvst K) : option (mvst K) :=
  let '(cs0, o0, ld0, n0) := sd0 in
  let '(cs1, o1, ld1, n1) := sd1 in
  if jx_bimv c then
    ext_krnl_bimv (jx_dim c) (h_kdim h) cs0 o0 ld0 n0 cs1 o1 ld1 n1 in0 in1 ldi0 ldi1 ldo0 ldo1 add0 add1 s
  else
    b <- getz (s_m0 s) tid;
    '(d, s) <- krnl_eval_bimv (jx_dim c) (h_kdim h) cs0 o0 ld0 n0 cs1 o1 ld1 n1 in0 in1
        (fun k v x => s <- add0 k v (snd x); Some (fst x, s)) (fun k v x => s <- add1 k v (snd x); Some (fst x, s)) blk (dm_data b, s);
    put_m0 tid (dm_set_data b d) s.

(** H2Pack_matvec.c:628-743: pair [i] of H2P_matvec_intmd_mult_JIT on thread
    [tid]; [x] is the vector passed to it (pmt_x or xT). *)
Definition jmid_pair (h : h2rep F K) (c : jctx) (x : mem K) (tid i : Z) (s : mvst K) : option (mvst K) :=
  '(node0, node1) <- getz (h_adm h) i;
  level0 <- ld (a_level (h_t h)) node0;
  level1 <- ld (a_level (h_t h)) node1;
  nrow <- ld (h_Bnrow h) i;
  ncol <- ld (h_Bncol h) i;
  blk <- jit_blk (h_kdim h) ncol;
  b <- get_m0 tid (blk * h_kdim h) ncol s;
  s <- put_m0 tid b s;
  if level0 =? level1 then
    y1 <- s_y1 s;
    m0 <- getz y1 node0;
    m1 <- getz y1 node1;
    sd0 <- skel_side c node0;
    sd1 <- skel_side c node1;
    apply_block h c sd0 sd1 (y0_at s node1) (y0_at s node0) (ncol / h_kdim h) (nrow / h_kdim h) (nrow / h_kdim h) (ncol / h_kdim h)
      (add_y1 node0 (tid * dm_ncol m0)) (add_y1 node1 (tid * dm_ncol m1)) tid blk s
  else if level1 <? level0 then
    sd1 <- pt_side h c node1;
    vs1 <- ld (h_mcl h) (node1 * 2);
    y1 <- s_y1 s;
    m0 <- getz y1 node0;
    sd0 <- skel_side c node0;
    let pos := if jx_bimv c then snd (fst (fst sd1)) else vs1 in
    apply_block h c sd0 sd1 (fun k => ld x (pos + k)) (y0_at s node0) (h_npoint h) (nrow / h_kdim h) (nrow / h_kdim h) (h_npoint h)
      (add_y1 node0 (tid * dm_ncol m0)) (add_ty tid pos) tid blk s
  else
    sd0 <- pt_side h c node0;
    vs0 <- ld (h_mcl h) (node0 * 2);
    y1 <- s_y1 s;
    m1 <- getz y1 node1;
    sd1 <- skel_side c node1;
    let pos := if jx_bimv c then snd (fst (fst sd0)) else vs0 in
    apply_block h c sd0 sd1 (y0_at s node1) (fun k => ld x (pos + k)) (ncol / h_kdim h) (h_npoint h) (h_npoint h) (ncol / h_kdim h)
      (add_ty tid pos) (add_y1 node1 (tid * dm_ncol m1)) tid blk s.

(** H2Pack_matvec.c:586-764 H2P_matvec_intmd_mult_JIT. *)
Definition intmd_mult_jit (h : h2rep F K) (c : jctx) (x : mem K) (team : list Z) (evs sums : list (Z * Z)) (s : mvst K) : option (mvst K) :=
  s <- init_y1 h team s;
  s <- run (map (fun ev => jmid_pair h c x (fst ev) (snd ev)) evs) s;
  run (map (fun ev => sum_y1_node h (snd ev)) sums) s.

(** H2Pack_matvec.c:1041-1081: diagonal block [i] of H2P_matvec_dense_mult_JIT;
    Di and tmp are both thread_buf[tid]->mat0, x_out_1 is its data. *)
Definition jdense_diag (h : h2rep F K) (c : jctx) (x : mem K) (tid i : Z) (s : mvst K) : option (mvst K) :=
  node <- ld (a_height_nodes (h_t h)) i;
  sd <- pt_side h c node;
  let '(cs, o, ldc, npt) := sd in
  vs <- ld (h_mcl h) (node * 2);
  tmp <- get_m0 tid (npt * h_kdim h) 1 s;
  if jx_bimv c then
    '(d, s) <- ext_krnl_bimv (jx_dim c) (h_kdim h) cs o ldc npt cs o ldc npt (fun k => ld x (o + k)) (fun k => ld x (o + k))
      (h_npoint h) 0 (h_npoint h) 0
      (fun k v (y : mem K * mvst K) => s <- add_ty tid o k v (snd y); Some (fst y, s))
      (fun k v y => d <- madd_any (fst y) k v; Some (d, snd y)) (dm_data tmp, s);
    put_m0 tid (dm_set_data tmp d) s
  else
    ncol <- ld (h_Dncol h) i;
    blk <- jit_blk (h_kdim h) ncol;
    let Di := dm_resize tmp (blk * h_kdim h) ncol in
    '(d, s) <- krnl_eval_bimv (jx_dim c) (h_kdim h) cs o ldc npt cs o ldc npt (fun k => ld x (vs + k)) (fun k => ld x (vs + k))
      (fun k v (y : mem K * mvst K) => s <- add_ty tid vs k v (snd y); Some (fst y, s))
      (fun k v y => d <- madd_any (fst y) k v; Some (d, snd y)) blk (dm_data Di, s);
    put_m0 tid (dm_set_data Di d) s.

(** H2Pack_matvec.c:1090-1131: inadmissible pair [i]. *)
Definition jdense_off (h : h2rep F K) (c : jctx) (x : mem K) (tid i : Z) (s : mvst K) : option (mvst K) :=
  '(node0, node1) <- getz (h_inadm h) i;
  sd0 <- pt_side h c node0;
  sd1 <- pt_side h c node1;
  vs0 <- ld (h_mcl h) (2 * node0);
  vs1 <- ld (h_mcl h) (2 * node1);
  let pos0 := if jx_bimv c then snd (fst (fst sd0)) else vs0 in
  let pos1 := if jx_bimv c then snd (fst (fst sd1)) else vs1 in
  '(blk, s) <- (if jx_bimv c then Some (0, s) else
                ncol <- ld (h_Dncol h) (h_nleaf h + i);
                blk <- jit_blk (h_kdim h) ncol;
                b <- get_m0 tid (blk * h_kdim h) ncol s;
                s <- put_m0 tid b s;
                Some (blk, s));
  apply_block h c sd0 sd1 (fun k => ld x (pos1 + k)) (fun k => ld x (pos0 + k)) (h_npoint h) (h_npoint h) (h_npoint h) (h_npoint h)
    (add_ty tid pos0) (add_ty tid pos1) tid blk s.

(** H2Pack_matvec.c:1002-1145 H2P_matvec_dense_mult_JIT. *)
Definition dense_mult_jit (h : h2rep F K) (c : jctx) (x : mem K) (evs : list (Z * (bool * Z))) (s : mvst K) : option (mvst K) :=
  run (map (fun (ev : Z * (bool * Z)) s => let '(tid, (isoff, i)) := ev in
         if (isoff : bool) then jdense_off h c x tid i s else jdense_diag h c x tid i s) evs) s.

(** H2P_transpose_dmat; [ord] interleaves the stores of its threads. *)
Definition transpose_dmat (ord : list (list (act (mem K))) -> list (act (mem K))) (n_thread nrow ncol : Z) (src : mem K) (lds : Z) (dst : mem K) (ldd : Z) : option (mem K) :=
  ths <- transpose_threads n_thread nrow ncol src lds ldd;
  run (ord ths) dst.

(** H2Pack_matvec.c:193-202: iteration [node] of H2P_transpose_y0_from_krnldim. *)
Definition trans_y0_node (h : h2rep F K) (tid node : Z) (s : mvst K) : option (mvst K) :=
  y0 <- s_y0 s;
  m <- getz y0 node;
  if dm_ld m =? 0 then Some s else
  let len := dm_nrow m in
  let npt := (len / h_kdim h)%Z in
  tmp <- get_m0 tid len 1 s;
  d <- transpose_dmat (@concat _) 1 npt (h_kdim h) (dm_data m) (h_kdim h) (dm_data tmp) npt;
  s <- put_m0 tid (dm_set_data tmp d) s;
  e <- mcpy (dm_data m) 0 d 0 len;
  y0 <- setz y0 node (dm_set_data m e);
  Some (set_y0 s y0).

(** H2Pack_matvec.c:220-229: iteration [node] of H2P_transpose_y1_to_krnldim. *)
Definition trans_y1_node (h : h2rep F K) (tid node : Z) (s : mvst K) : option (mvst K) :=
  y1 <- s_y1 s;
  m <- getz y1 node;
  if dm_ld m =? 0 then Some s else
  let len := dm_ncol m in
  let npt := (len / h_kdim h)%Z in
  tmp <- get_m0 tid len 1 s;
  d <- transpose_dmat (@concat _) 1 (h_kdim h) npt (dm_data m) npt (dm_data tmp) (h_kdim h);
  s <- put_m0 tid (dm_set_data tmp d) s;
  e <- mcpy (dm_data m) 0 d 0 len;
  y1 <- setz y1 node (dm_set_data m e);
  Some (set_y1 s y1).

(** H2Pack_matvec.c:1247-1258 with y_ == yT. *)
Definition reduce_yT (h : h2rep F K) (tid : Z) (s : mvst K) : option (mvst K) :=
  '(spos, len) <- calc_block_spos_len (h_kms h) (h_nthread h) tid;
  yT <- zfor 0 (h_nthread h) (fun t yT =>
    src <- getz (s_ty s) t;
    zfor spos (spos + len) (fun i yT => v <- ld src i; madd yT i v) yT) (s_yT s);
  Some (set_yT s yT).

(** The choices of the OpenMP runtime: those of [schedule], the loops that
    transpose y0 and y1, and the two calls of H2P_transpose_dmat. *)
Record jschedule := JSched {
  jc_sc : schedule;
  jc_t0 : list (Z * Z); jc_t1 : list (Z * Z);
  jc_ordx : list (list (act (mem K))) -> list (act (mem K));
  jc_ordy : list (list (act (mem K))) -> list (act (mem K))
}.

(** H2Pack_matvec.c:1162-1284 H2P_matvec with BD_JIT == 1; the state is the
    working buffers and xT. *)
Definition matvec_jit (h : h2rep F K) (c : jctx) (js : jschedule) (sx : mvst K * mem K) (x y : mem K) : option (mvst K * mem K * mem K) :=
  let sc := jc_sc js in
  let nt := jx_bimv c && (1 <? h_kdim h) in
  let '(s, xT) := sx in
  px <- gather_vector_elements (h_kms h) (h_fwd h) x 0 (s_px s) 0;
  s <- reset_y h (set_px s px);
  xT <- (if nt then transpose_dmat (jc_ordx js) (h_nthread h) (h_npoint h) (h_kdim h) (s_px s) (h_kdim h) xT (h_npoint h) else Some xT);
  let x_ := if nt then xT else s_px s in
  s <- fwd_transform h (sc_fwd sc) s;
  s <- (if nt then run (map (fun ev => trans_y0_node h (fst ev) (snd ev)) (jc_t0 js)) s else Some s);
  s <- intmd_mult_jit h c x_ (sc_team sc) (sc_mid sc) (sc_sum sc) s;
  s <- (if nt then run (map (fun ev => trans_y1_node h (fst ev) (snd ev)) (jc_t1 js)) s else Some s);
  s <- bwd_transform h (sc_bwd sc) s;
  s <- dense_mult_jit h c x_ (sc_den sc) s;
  s <- run (map (if nt then reduce_yT h else reduce_y h) (sc_red sc)) s;
  '(s, xT) <- (if nt then
      xT <- transpose_dmat (jc_ordy js) (h_nthread h) (h_kdim h) (h_npoint h) (s_yT s) (h_npoint h) xT (h_kdim h);
      py <- zfor 0 (h_kms h) (fun i py => v <- ld xT i; madd py i v) (s_py s);
      Some (set_py s py, xT)
    else Some (s, xT));
  y <- gather_vector_elements (h_kms h) (h_bwd h) (s_py s) 0 y 0;
  Some (s, xT, y).

(** ** Which schedules OpenMP may produce: all loops over blocks are dynamic. *)
Definition dyn_assignment (nth nblk : Z) (asg : list (list Z)) : Prop := zlen asg = nth /\ Permutation (concat asg) (zrange 0 nblk).
Definition jmid_schedule (h : h2rep F K) (l : list (Z * Z)) : Prop :=
  exists asg, dyn_assignment (h_nthread h) (iv_len (h_Bblk h) - 1) asg /\ inter (thread_items (h_Bblk h) asg) l.
Definition jden_schedule (h : h2rep F K) (l : list (Z * (bool * Z))) : Prop :=
  exists a0 a1, dyn_assignment (h_nthread h) (iv_len (h_D0blk h) - 1) a0 /\
    dyn_assignment (h_nthread h) (iv_len (h_D1blk h) - 1) a1 /\
    inter (map (fun '(l0, l1) => map (fun '(t, i) => (t, (false, i))) l0 ++ map (fun '(t, i) => (t, (true, i))) l1)
             (combine (thread_items (h_D0blk h) a0) (thread_items (h_D1blk h) a1))) l.
Record jschedule_ok (h : h2rep F K) (js : jschedule) : Prop := {
  jo_fwd : forall i n, h_minlevel h <= i <= h_maxlevel h -> ld (a_level_n (h_t h)) i = Some n ->
    omp_for (Z.min n (h_nthread h)) n (sc_fwd (jc_sc js) i);
  jo_team : Permutation (sc_team (jc_sc js)) (zrange 0 (h_nthread h));
  jo_mid : jmid_schedule h (sc_mid (jc_sc js));
  jo_sum : omp_for (h_nthread h) (h_nnode h) (sc_sum (jc_sc js));
  jo_bwd : forall i n, h_minlevel h <= i <= h_maxlevel h -> ld (a_level_n (h_t h)) i = Some n ->
    omp_for (Z.min n (h_nthread h)) n (sc_bwd (jc_sc js) i);
  jo_den : jden_schedule h (sc_den (jc_sc js));
  jo_red : Permutation (sc_red (jc_sc js)) (zrange 0 (h_nthread h));
  jo_t0 : omp_for (h_nthread h) (h_nnode h) (jc_t0 js);
  jo_t1 : omp_for (h_nthread h) (h_nnode h) (jc_t1 js);
  jo_ordx : forall ths, inter ths (jc_ordx js ths);
  jo_ordy : forall ths, inter ths (jc_ordy js ths)
}.

(** H2Pack_build.c:1143-1209 H2P_build with BD_JIT == 1: the metadata only, with
    BD_NTASK_THREAD == 10 work blocks per thread (H2Pack_config.h). *)
Definition h2_build_jit (pt_dim xpt_dim kdim n_point n_thread : Z) (t : tree_result F) (ps : pairs)
    (U : list (dmat K)) (J : list int_vec) (Jc : list (dmat F)) (blkB blkD0 blkD1 : int_vec) (ordB ordD : list Z)
    : option (h2rep F K * bmeta * bmeta) :=
  let a := r_arrays t in
  mcl <- mat_clusters kdim (r_n_node t) (a_cluster a);
  '(bm, nr, bB) <- gen_B_metadata kdim (r_n_node t) n_thread 10 false (a_level a) (a_cluster a) J (ps_adm ps) ordB blkB;
  '(dm, bD0, bD1) <- gen_D_metadata kdim (r_n_node t) (r_n_leaf t) n_thread 10 false (a_height_nodes a) (a_cluster a) (ps_inadm ps) ordD blkD0 blkD1;
  '(fwd, bwd) <- pmt_indices n_point kdim (r_idx t);
  fwd <- read_cells fwd 0 (n_point * kdim);
  bwd <- read_cells bwd 0 (n_point * kdim);
  Some ({| h_ptdim := pt_dim; h_npoint := n_point; h_kdim := kdim; h_nthread := n_thread; h_nnode := r_n_node t;
           h_maxchild := 2 ^ pt_dim; h_nleaf := r_n_leaf t; h_maxlevel := r_max_level t; h_minlevel := ps_min_level ps;
           h_kms := kdim * n_point; h_t := a; h_mcl := mcl; h_U := U; h_adm := ps_adm ps; h_inadm := ps_inadm ps; h_nr := nr;
           h_Bnrow := bm_nrow bm; h_Bncol := bm_ncol bm; h_Bptr := bm_ptr bm; h_Bdata := [];
           h_Dnrow := bm_nrow dm; h_Dncol := bm_ncol dm; h_Dptr := bm_ptr dm; h_Ddata := [];
           h_Bblk := bB; h_D0blk := bD0; h_D1blk := bD1; h_fwd := fwd; h_bwd := bwd |}, bm, dm).
End JIT.
Arguments jctx : clear implicits.
Arguments jschedule : clear implicits.
