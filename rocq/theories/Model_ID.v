(** Model of src/H2Pack_ID_compress.c: partially pivoted QR and the interpolative
    decomposition.  The pieces of the work buffers QR_buff and ID_buff are
    modelled as separate, freshly allocated arrays of the documented sizes (so
    reading something not written before is an error).  BLAS calls are modelled
    by what they are documented to compute.  int overflow is not modelled. *)
From Coq Require Import ZArith QArith List Lia Bool.
From Verif Require Import Base Mem FNum Model_Utils Model_Dense Model_CSR Model_Build.
Import ListNotations.
Open Scope Z_scope.

Section Mem.
Context {A : Type}.
(** [n] values starting at [off], [inc] apart (a BLAS vector). *)
Definition rds (m : mem A) (off n inc : Z) : option (list A) := all_some (map (fun k => ld m (off + k * inc)) (zrange 0 n)).

(** H2Pack_ID_compress.c:13-33 swap_int, swap_DTYPE. *)
Definition swap_cells (m : mem A) (x y len : Z) : option (mem A) :=
  zfor 0 len (fun i m =>
    a <- getz m (x + i);
    b <- getz m (y + i);
    m <- setz m (x + i) b;
    setz m (y + i) a) m.

(** An "omp parallel for" whose iterations are carried out in the order [ord]. *)
Fixpoint par_for {St} (ord : list Z) (body : Z -> St -> option St) (s : St) : option St :=
  match ord with [] => Some s | j :: l => s <- body j s; par_for l body s end.
End Mem.

Section ID.
Context {F : fnum}.

(** H2Pack_ID_compress.c:66-75, 206-214: eps_t and fast_norm_threshold_t;
    [dbl]: sizeof(DTYPE) == 8. *)
Definition eps_t (dbl : bool) : F := flit (if dbl then 1 # 10 ^ 15 else 1 # 10 ^ 6)%Q.
Definition fast_thr (dbl : bool) : F := flit (if dbl then 1 # 10 ^ 10 else 1 # 10 ^ 5)%Q.

(** CBLAS_NRM2 and CBLAS_DOT on contiguous vectors. *)
Definition nrm2 (m : mem F) (off n : Z) : option F := l <- rds m off n 1; Some (fnrm2 l).
Definition dot (m1 : mem F) (o1 : Z) (m2 : mem F) (o2 n : Z) : option F := x <- rds m1 o1 n 1; y <- rds m2 o2 n 1; Some (fdot x y).

(** H2Pack_ID_compress.c:86-95, 171-179, 396-404: largest norm and its place,
    starting at [lo]. *)
Definition find_pivot (cn : mem F) (lo hi : Z) : option (Z * F) :=
  zfor lo hi (fun j (s : Z * F) => c <- ld cn j; Some (if flt (snd s) c then (j, c) else s)) (lo, flit 0%Q).

(** H2Pack_ID_compress.c:97-101, 248-252. *)
Definition stop_norm (dbl rel : bool) (nrow : Z) (tol_norm norm_p : F) : F :=
  let s := fmax (fmul (fsqrt (flit (inject_Z nrow))) (eps_t dbl)) tol_norm in
  if rel then fmul s norm_p else s.

(** H2Pack_ID_compress.c:121-131, 277-286: turn the [len] cells at [off] into
    the unit Householder vector; returns sign and h_norm too. *)
Definition house (R : mem F) (off len : Z) : option (mem F * F * F) :=
  h0 <- ld R off;
  let sign := if flt (flit 0%Q) h0 then flit 1%Q else flit (-1)%Q in
  h_norm <- nrm2 R off len;
  R <- st R off (fadd h0 (fmul sign h_norm));
  n2 <- nrm2 R off len;
  inv <- fdiv (flit 1%Q) n2;
  R <- zfor 0 len (fun j R => x <- ld R (off + j); st R (off + j) (fmul x inv)) R;
  Some (R, sign, h_norm).

(** H2Pack_ID_compress.c:144-150, 297-303: reflect the column at [coff] with the
    unit vector at [voff]. *)
Definition reflect (R : mem F) (voff coff len : Z) : option (mem F) :=
  d <- dot R voff R coff len;
  let h_Rj := fmul (flit 2%Q) d in
  zfor 0 len (fun k R => x <- ld R (coff + k); v <- ld R (voff + k); st R (coff + k) (fsub x (fmul h_Rj v))) R.

(** H2Pack_ID_compress.c:168-170, 311-312: the pivot column becomes
    -sign * h_norm followed by zeros. *)
Definition finish_col (R : mem F) (off len : Z) (sign h_norm : F) : option (mem F) :=
  R <- st R off (fmul (fsub (flit 0%Q) sign) h_norm);
  zfor 1 len (fun k R => st R (off + k) (flit 0%Q)) R.

(** ** H2Pack_ID_compress.c:51-184 H2P_partial_pivot_QR *)

(** R, p, col_norm, pivot, norm_p and rank (-1: still running). *)
Record qst := QSt { q_R : mem F; q_p : mem Z; q_cn : mem F; q_piv : Z; q_np : F; q_rank : Z }.

(** H2Pack_ID_compress.c:138-166: iteration [j] of the column update of step [i]. *)
Definition qr_col (dbl : bool) (nrow ldR : Z) (sn : F) (i j : Z) (x : mem F * mem F) : option (mem F * mem F) :=
  let '(R, cn) := x in
  let ji1 := j + i + 1 in
  let coff := ji1 * ldR + i in
  R <- reflect R (i * ldR + i) coff (nrow - i);
  c <- ld cn ji1;
  if flt c sn then cn <- st cn ji1 (flit 0%Q); Some (R, cn) else
  r0 <- ld R coff;
  let tmp := fsub (fmul c c) (fmul r0 r0) in
  v <- (if fle tmp (fast_thr dbl) then nrm2 R (coff + 1) (nrow - i - 1) else Some (fsqrt tmp));
  cn <- st cn ji1 v;
  Some (R, cn).

(** H2Pack_ID_compress.c:107-181: one step of the main loop; [ord i] is the
    order in which the columns are updated. *)
Definition qr_step (dbl : bool) (nrow ncol ldR stop_rank : Z) (sn : F) (ord : Z -> list Z) (i : Z) (s : qst) : option qst :=
  if negb (q_rank s =? -1) then Some s else
  if flt (q_np s) sn || (stop_rank <=? i) then Some (QSt (q_R s) (q_p s) (q_cn s) (q_piv s) (q_np s) i) else
  let piv := q_piv s in
  '(R, p, cn) <- (if i =? piv then Some (q_R s, q_p s, q_cn s) else
     p <- swap_cells (q_p s) i piv 1;
     cn <- swap_cells (q_cn s) i piv 1;
     R <- swap_cells (q_R s) (i * ldR) (piv * ldR) nrow;
     Some (R, p, cn));
  '(R, sign, h_norm) <- house R (i * ldR + i) (nrow - i);
  '(R, cn) <- par_for (ord i) (qr_col dbl nrow ldR sn i) (R, cn);
  R <- finish_col R (i * ldR + i) (nrow - i) sign h_norm;
  '(piv, np) <- find_pivot cn (i + 1) ncol;
  Some (QSt R p cn piv np (-1)).

(** H2Pack_ID_compress.c:77-84: column norms and the identity permutation. *)
Definition qr_init (nrow ldR : Z) (R : mem F) (j : Z) (x : mem Z * mem F) : option (mem Z * mem F) :=
  let '(p, cn) := x in
  p <- st p j j;
  n <- nrm2 R (j * ldR) nrow;
  cn <- st cn j n;
  Some (p, cn).

(** H2Pack_ID_compress.c:51-184; [ord0]: order of the first parallel loop. *)
Definition pivot_qr (dbl rel : bool) (nrow ncol ldR tol_rank : Z) (tol_norm : F) (ord0 : list Z) (ord : Z -> list Z)
    (R : mem F) (p : mem Z) : option (mem F * mem Z * Z) :=
  let max_iter := Z.min nrow ncol in
  '(p, cn) <- par_for ord0 (qr_init nrow ldR R) (p, alloc ncol);
  '(piv, np) <- find_pivot cn 0 ncol;
  let stop_rank := Z.min max_iter tol_rank in
  let sn := stop_norm dbl rel nrow tol_norm np in
  s <- zfor 0 max_iter (qr_step dbl nrow ncol ldR stop_rank sn ord) (QSt R p cn piv np (-1));
  Some (q_R s, q_p s, if q_rank s =? -1 then max_iter else q_rank s).
(** ** H2Pack_ID_compress.c:191-418 H2P_partial_pivot_QR_kdim *)

(** H2Pack_ID_compress.c:232-246: block norms from the column norms, in place,
    with the largest one. *)
Definition blk_norms (kdim nblk : Z) (bn : mem F) : option (mem F * Z * F) :=
  zfor 0 nblk (fun j (s : mem F * Z * F) => let '(bn, piv, np) := s in
    tmp <- zfor 0 kdim (fun k tmp => c <- ld bn (kdim * j + k); Some (fadd tmp (fmul c c))) (flit 0%Q);
    let n := fsqrt tmp in
    bn <- st bn j n;
    Some (if flt np n then (bn, j, n) else (bn, piv, np))) (bn, 0, flit 0%Q).

(** H2Pack_ID_compress.c:274-313: the kdim Householder steps inside column block
    [i]; state: R and Vblk. *)
Definition blk_house (kdim nrow ldR i ii : Z) (x : mem F * mem F) : option (mem F * mem F) :=
  let '(R, V) := x in
  let hoff := ii * ldR + ii in
  let h_len := nrow - ii in
  let n := nrow - i * kdim in
  '(R, sign, h_norm) <- house R hoff h_len;
  let b := ii - i * kdim in
  R <- zfor 0 (kdim - b - 1) (fun j R => reflect R hoff ((ii + 1) * ldR + ii + j * ldR) h_len) R;
  V <- zfor 0 b (fun j V => st V (b * n + j) (flit 0%Q)) V;
  V <- mcpy V (b * n + b) R hoff h_len;
  R <- finish_col R hoff h_len sign h_norm;
  Some (R, V).

(** H2Pack_ID_compress.c:317-335: the matrix W of the block reflector I + V W^T;
    state: W, VV, WVV. *)
Definition blk_W (kdim n : Z) (V W VV WVV : mem F) : option (mem F) :=
  W <- zfor 0 n (fun j W => v <- ld V j; st W j (fmul (flit (-2)%Q) v)) W;
  s <- zfor 1 kdim (fun ii (s : mem F * mem F * mem F) => let '(W, VV, WVV) := s in
    (* CBLAS_GEMV, transposed: VV = V^T V_ii *)
    VV <- zfor 0 ii (fun j VV => d <- dot V (j * n) V (ii * n) n; st VV j d) VV;
    (* CBLAS_GEMV: WVV = W VV *)
    WVV <- zfor 0 n (fun r WVV => x <- rds W r ii n; y <- rds VV 0 ii 1; st WVV r (fdot x y)) WVV;
    W <- zfor 0 n (fun j W => v <- ld V (ii * n + j); w <- ld WVV j; st W (ii * n + j) (fmul (flit (-2)%Q) (fadd v w))) W;
    Some (W, VV, WVV)) (W, VV, WVV);
  Some (fst (fst s)).

(** H2Pack_ID_compress.c:336-361: R += V (W^T R) on the columns right of the
    block, a few columns at a time; state: R, WR. *)
Definition col_blk (dbl : bool) (n kdim : Z) : Z :=
  let b := (128 * 1024) / (if dbl then 8 else 4) / (n * kdim * 3) in if b <? 2 then 8 else b.
Definition blk_update (dbl : bool) (kdim n ldR roff ncols : Z) (V W R WR : mem F) : option (mem F) :=
  let bs := col_blk dbl n kdim in
  s <- zfor 0 ((ncols + bs - 1) / bs) (fun t (s : mem F * mem F) => let '(R, WR) := s in
    let c0 := t * bs in
    let nc := Z.min bs (ncols - c0) in
    (* CBLAS_GEMM: WR = W^T R *)
    WR <- zfor 0 nc (fun c WR => zfor 0 kdim (fun a WR => d <- dot W (a * n) R (roff + ldR * (c0 + c)) n; st WR (c * kdim + a) d) WR) WR;
    (* CBLAS_GEMM: R += V WR *)
    R <- zfor 0 nc (fun c R => zfor 0 n (fun r R =>
           x <- rds V r kdim n; y <- rds WR (c * kdim) kdim 1; v <- ld R (roff + ldR * (c0 + c) + r);
           st R (roff + ldR * (c0 + c) + r) (fadd v (fdot x y))) R) R;
    Some (R, WR)) (R, WR);
  Some (fst s).

(** H2Pack_ID_compress.c:364-401: new norm of column block [j] after step [i]. *)
Definition blk_renorm (dbl : bool) (kdim nrow ldR : Z) (sn : F) (R : mem F) (i j : Z) (bn : mem F) : option (mem F) :=
  c <- ld bn j;
  if flt c sn then st bn j (flit 0%Q) else
  tmp <- zfor 0 kdim (fun k0 tmp => zfor 0 kdim (fun k1 tmp =>
           x <- ld R (i * kdim + j * kdim * ldR + k0 * ldR + k1); Some (fsub tmp (fmul x x))) tmp) (fmul c c);
  if fle tmp (fast_thr dbl) then
    tmp <- zfor 0 kdim (fun k tmp => t1 <- nrm2 R ((j * kdim + k) * ldR + (i + 1) * kdim) (nrow - (i + 1) * kdim); Some (fadd tmp (fmul t1 t1))) (flit 0%Q);
    st bn j (fsqrt tmp)
  else st bn j (fsqrt tmp).

(** H2Pack_ID_compress.c:257-412: one step of the main loop.  V, W, VV, WVV and
    WR keep their place in QR_buff; here each step gets fresh ones. *)
Definition qrk_step (dbl : bool) (kdim nrow ncol ldR stop_rank : Z) (sn : F) (ord : Z -> list Z) (i : Z) (s : qst) : option qst :=
  if negb (q_rank s =? -1) then Some s else
  if flt (q_np s) sn || (stop_rank <=? i) then Some (QSt (q_R s) (q_p s) (q_cn s) (q_piv s) (q_np s) (i * kdim)) else
  let piv := q_piv s in
  '(R, p, bn) <- (if i =? piv then Some (q_R s, q_p s, q_cn s) else
     p <- swap_cells (q_p s) (i * kdim) (piv * kdim) kdim;
     bn <- swap_cells (q_cn s) i piv 1;
     R <- swap_cells (q_R s) (i * kdim * ldR) (piv * kdim * ldR) (ldR * kdim);
     Some (R, p, bn));
  let n := nrow - i * kdim in
  '(R, V) <- zfor (i * kdim) (i * kdim + kdim) (blk_house kdim nrow ldR i) (R, alloc (kdim * nrow));
  W <- blk_W kdim n V (alloc (kdim * nrow)) (alloc nrow) (alloc nrow);
  R <- blk_update dbl kdim n ldR ((i * kdim + kdim) * ldR + i * kdim) (ncol - (i * kdim + kdim)) V W R (alloc (kdim * ncol));
  bn <- par_for (ord i) (blk_renorm dbl kdim nrow ldR sn R i) bn;
  '(piv, np) <- find_pivot bn (i + 1) (ncol / kdim);
  Some (QSt R p bn piv np (-1)).

(** H2Pack_ID_compress.c:225-230. *)
Definition qrk_init (nrow ldR : Z) (R : mem F) (j : Z) (bn : mem F) : option (mem F) := n <- nrm2 R (j * ldR) nrow; st bn j n.

Definition pivot_qr_kdim (dbl rel : bool) (kdim nrow ncol ldR tol_rank : Z) (tol_norm : F) (ord0 : list Z) (ord : Z -> list Z)
    (R : mem F) (p : mem Z) : option (mem F * mem Z * Z) :=
  let max_iter := Z.min nrow ncol / kdim in
  p <- zfor 0 ncol (fun j p => st p j j) p;
  bn <- par_for ord0 (qrk_init nrow ldR R) (alloc ncol);
  '(bn, piv, np) <- blk_norms kdim (ncol / kdim) bn;
  let stop_rank := Z.min max_iter (Z.quot tol_rank kdim) in
  let sn := stop_norm dbl rel nrow tol_norm np in
  s <- zfor 0 max_iter (qrk_step dbl kdim nrow ncol ldR stop_rank sn ord) (QSt R p bn piv np (-1));
  Some (q_R s, q_p s, if q_rank s =? -1 then max_iter * kdim else q_rank s).

(** ** H2Pack_ID_compress.c:433-487 H2P_ID_QR *)
Inductive stop := QR_RANK (r : Z) | QR_REL_NRM (tol : F) | QR_ABS_NRM (tol : F).
Definition stop_params (st : stop) (kdim mn : Z) : Z * F * bool :=
  match st with
  | QR_RANK r => (r, flit (1 # 10 ^ 15)%Q, true)
  | QR_REL_NRM tol => (mn, fmul tol (fsqrt (flit (inject_Z kdim))), true)
  | QR_ABS_NRM tol => (mn, tol, false)
  end.
(** [nrow], [ncol]: of the column-major matrix; returns R, p and the rank. *)
Definition id_qr (dbl : bool) (stp : stop) (kdim nrow ncol ldR : Z) (ord0 : list Z) (ord : Z -> list Z) (R : mem F) (p : mem Z)
    : option (mem F * mem Z * Z) :=
  let '(tol_rank, tol_norm, rel) := stop_params stp kdim (Z.min nrow ncol) in
  '(R, p, r) <- (if kdim =? 1 then pivot_qr dbl rel nrow ncol ldR tol_rank tol_norm ord0 ord R p
                 else pivot_qr_kdim dbl rel kdim nrow ncol ldR tol_rank tol_norm ord0 ord R p);
  p <- (if r =? 0 then zfor 0 ncol (fun i p => st p i i) p else Some p);
  Some (R, p, r).

(** ** H2Pack_ID_compress.c:491-576 H2P_ID_compress *)

(** CBLAS_TRSM (left, upper, not transposed, non unit): the [n] columns of
    length [r] at [boff] are replaced by the solutions of R11 x = b. *)
Definition trsm (R : mem F) (ldR r n boff : Z) : option (mem F) :=
  zfor 0 n (fun j R => let b := boff + j * ldR in
    zfor 0 r (fun t R => let k := r - 1 - t in
      row <- rds R (k + (k + 1) * ldR) (r - 1 - k) ldR;
      x <- rds R (b + k + 1) (r - 1 - k) 1;
      bk <- ld R (b + k);
      d <- ld R (k * ldR + k);
      v <- fdiv (fsub bk (fdot row x)) d;
      st R (b + k) v) R) R.

(** H2Pack_ID_compress.c:509-522: p0, i0, sorting J, i1, p1; returns J, i0, p1. *)
Definition id_index (n r : Z) (J : mem Z) : option (mem Z * mem Z * mem Z) :=
  '(p0, i0) <- zfor 0 n (fun i (x : mem Z * mem Z) => let '(p0, i0) := x in
      ji <- ld J i; p0 <- st p0 ji i; i0 <- st i0 i i; Some (p0, i0)) (alloc n, alloc n);
  '(J, i0) <- qsort_kv (Z.to_nat (r + 1)) J i0 0 (r - 1);
  i1 <- zfor 0 n (fun i i1 => k <- ld i0 i; st i1 k i) (alloc n);
  p1 <- zfor 0 n (fun i p1 => k <- ld p0 i; v <- ld i1 k; st p1 i v) (alloc n);
  Some (J, i0, p1).

(** H2Pack_ID_compress.c:537-565: the projection matrix. *)
Definition id_U (n r ldR : Z) (R : mem F) (i0 p1 : mem Z) : option (dmat F) :=
  let U := dm_init n r in
  d <- zfor 0 r (fun i d =>
         d <- zfor 0 r (fun k d => st d (i * r + k) (flit 0%Q)) d;
         st d (i * r + i) (flit 1%Q)) (dm_data U);
  R <- trsm R ldR r (n - r) (r * ldR);
  d <- zfor 0 r (fun icol d =>
         ic <- ld i0 icol;
         zfor 0 (n - r) (fun irow d => v <- ld R (r * ldR + ic + irow * ldR); st d (r * r + icol + irow * r) v) d) d;
  p1 <- read_cells p1 0 n;
  dm_permute_rows (dm_set_data U d) p1.

(** H2Pack_ID_compress.c:567-573: with kdim > 1, from rows to points. *)
Definition id_points (kdim r : Z) (J : mem Z) : option (mem Z * Z) :=
  if 1 <? kdim then
    j0 <- ld J 0;
    J <- st J 0 (Z.quot j0 kdim);
    J <- zfor 1 (Z.quot r kdim) (fun i J => j <- ld J (i * kdim); st J i (Z.quot j kdim)) J;
    Some (J, Z.quot r kdim)
  else Some (J, r).

(** H2Pack_ID_compress.c:491-576.  The result: the matrix A (now holding R, as it
    was before CBLAS_TRSM overwrote its R12 part), J and, if asked for, U.
    [ord0], [ord i]: order of the iterations of the parallel loops at lines
    77-84 / 225-230 and, in step i, 138-166 / 364-401. *)
Definition id_compress (dbl : bool) (stp : stop) (kdim : Z) (want_U : bool) (ord0 : list Z) (ord : Z -> list Z) (A : dmat F) (J : int_vec)
    : option (dmat F * int_vec * option (dmat F)) :=
  let n := dm_nrow A in
  let m := dm_ncol A in
  J <- iv_set_capacity J n;
  '(R, p, r) <- id_qr dbl stp kdim m n (dm_ld A) ord0 ord (dm_data A) (iv_data J);
  '(Jd, i0, p1) <- id_index n r p;
  U <- (if negb want_U then Some None
        else if r =? 0 then Some (Some (mkDM n 0 0 0 []))
        else U <- id_U n r (dm_ld A) R i0 p1; Some (Some U));
  '(Jd, len) <- id_points kdim r Jd;
  Some (mkDM r n (dm_ld A) (dm_size A) R, mkIV (iv_cap J) len Jd, U).
End ID.
