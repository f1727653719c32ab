(** The parallel regions of H2P_matmul (src/H2Pack_matmul.c) at the granularity of
    single accesses to shared data; companion of Model_Matmul.v, whose items are
    the same code run atomically.  Shared locations as in Model_MvFine.v: the
    cells of pmt_x and pmt_y, and y0[n], y1[n], thread_buf[t]->mat0 each as one
    location, read once at the start and written once at the end of an item that
    owns it.  The blocks (H2P_get_Bij_block, H2P_get_Dij_block), U, the tree and
    the CSR structures are not written by any region and are read directly. *)
From Coq Require Import ZArith List Lia Bool.
From Verif Require Import Base Mem Num CRing Conc Race Model_Utils Model_Dense Model_CSR Model_Partition Model_Matvec Model_Build Model_Matmul Model_MvFine.
Import ListNotations.
Open Scope Z_scope.

Section MmFine.
Context {F : num} {K : cring}.
Local Open Scope ring_K.
Notation S := (mstore (K := K) false).
Notation P := (prog (mstore (K := K) false)).
Notation "x <-- e ; f" := (pbind (mstore false) e (fun x => f)) (at level 100, e at level 90, f at level 200, right associativity).
Notation "' p <-- e ; f" := (pbind (mstore false) e (fun z => let p := z in f)) (at level 100, p pattern, e at level 90, f at level 200, right associativity).
Notation lift := (lift false).
Notation for_ := (for_ false).
Definition ret {A} (a : A) : P A := @Ret (mstore false) A a.

(** Reading an operand: cell i of a local matrix, or of pmt_x. *)
Definition loc (m : mem K) (i : Z) : P K := lift (ld m i).
Definition shx (i : Z) : P K := rdC false (LPX i).

(** cblas_?gemm as [gemm] in Model_Matmul.v, into a local matrix ... *)
Definition gemm_dot (ta tb : bool) (k : Z) (A : Z -> P K) (ao lda : Z) (B : Z -> P K) (bo ldb : Z) (i j : Z) : P K :=
  for_ 0 k (fun p v =>
    a <-- A (ao + (if ta then p * lda + i else i * lda + p))%Z;
    b <-- B (bo + (if tb then j * ldb + p else p * ldb + j))%Z;
    ret (v + a * b)) c0.
Definition gemm_f (ta tb : bool) (m n k : Z) (A : Z -> P K) (ao lda : Z) (B : Z -> P K) (bo ldb : Z) (acc : bool) (C : mem K) (co ldc : Z) : P (mem K) :=
  if acc && (k =? 0) then ret C else
  for_ 0 m (fun i C => for_ 0 n (fun j C =>
    v <-- gemm_dot ta tb k A ao lda B bo ldb i j;
    lift (if acc then madd C (co + (i * ldc + j))%Z v else st C (co + (i * ldc + j))%Z v)) C) C.
(** ... and, with beta = 1, into pmt_y. *)
Definition gemm_y_f (ta tb : bool) (m n k : Z) (A : Z -> P K) (ao lda : Z) (B : Z -> P K) (bo ldb : Z) (co ldc : Z) : P unit :=
  if k =? 0 then ret tt else
  for_ 0 m (fun i (_ : unit) => for_ 0 n (fun j (_ : unit) =>
    v <-- gemm_dot ta tb k A ao lda B bo ldb i j;
    addC false (LPY (co + (i * ldc + j))) v) tt) tt.

(** H2Pack_matmul.c:76-108: forward sweep, iteration for [node]. *)
Definition mm_fwd_node_f (h : h2rep F K) (nv ldx xrs : Z) (xt : bool) (node : Z) : P unit :=
  nc <-- lift (ld (a_nchild (h_t h)) node);
  U <-- lift (getz (h_U h) node);
  yn <-- rdD false (LY0 node);
  let yn := dm_resize yn (dm_ncol U) nv in
  d <-- (if nc =? 0 then
           srow <-- lift (ld (h_mcl h) (2 * node));
           erow <-- lift (ld (h_mcl h) (2 * node + 1));
           gemm_f true xt (dm_ncol U) nv (erow - srow + 1) (loc (dm_data U)) 0 (dm_ld U) shx (srow * xrs) ldx false (dm_data yn) 0 (dm_ld yn)
         else
           '(_, d) <-- for_ 0 nc (fun k (x : Z * mem K) => let '(usrow, d) := x in
              c <-- lift (ld (a_children (h_t h)) (node * h_maxchild h + k));
              yk <-- rdD false (LY0 c);
              d <-- gemm_f true false (dm_ncol U) nv (dm_nrow yk) (loc (dm_data U)) (usrow * dm_ld U) (dm_ld U)
                     (loc (dm_data yk)) 0 (dm_ld yk) (negb (k =? 0)%Z) d 0 (dm_ld yn);
              ret ((usrow + dm_nrow yk)%Z, d)) (0, dm_data yn);
           ret d);
  wrV false (LY0 node) (VD (dm_set_data yn d)).

(** H2Pack_matmul.c:173-238: pair (node0, node1) seen from node0; the thread's
    mat0 and y1[node0] are local. *)
Definition mm_mid_pair_f (h : h2rep F K) (get : Z -> Z -> dmat K -> option (option (dmat K))) (nv : Z)
    (ldx xrs : Z) (xt : bool) (ldy yrs : Z) (yt : bool) (node0 node1 : Z) (x : dmat K * dmat K) : P (dmat K * dmat K) :=
  let '(bij, y10) := x in
  level0 <-- lift (ld (a_level (h_t h)) node0);
  level1 <-- lift (ld (a_level (h_t h)) node1);
  y01 <-- rdD false (LY0 node1);
  bij <-- lift (fetch get node0 node1 bij);
  let '(nrow, ncol, ldb, tr) := view bij in
  d <-- (if level0 =? level1 then
           gemm_f tr false nrow nv ncol (loc (dm_data bij)) 0 ldb (loc (dm_data y01)) 0 (dm_ld y01) true (dm_data y10) 0 (dm_ld y10)
         else ret (dm_data y10));
  d <-- (if level1 <? level0 then
           xs <-- lift (ld (h_mcl h) (node1 * 2));
           gemm_f tr xt nrow nv ncol (loc (dm_data bij)) 0 ldb shx (xs * xrs) ldx true d 0 (dm_ld y10)
         else ret d);
  _ <-- (if level0 <? level1 then
           ys <-- lift (ld (h_mcl h) (node0 * 2));
           if yt then gemm_y_f true (negb tr) nv nrow ncol (loc (dm_data y01)) 0 (dm_ld y01) (loc (dm_data bij)) 0 ldb (ys * yrs) ldy
           else gemm_y_f tr false nrow nv ncol (loc (dm_data bij)) 0 ldb (loc (dm_data y01)) 0 (dm_ld y01) (ys * yrs) ldy
         else ret tt);
  ret (bij, dm_set_data y10 d).

(** H2Pack_matmul.c:164-240: iteration [node0] on thread [tid]. *)
Definition mm_mid_node_f (h : h2rep F K) (get : Z -> Z -> dmat K -> option (option (dmat K))) (bm : bmeta) (nv ldx xrs : Z) (xt : bool) (ldy yrs : Z) (yt : bool)
    (tid node0 : Z) : P unit :=
  bij <-- rdD false (LM0 tid);
  y10 <-- rdD false (LY1 node0);
  d <-- lift (mzero c0 (dm_data y10) (dm_nrow y10 * dm_ncol y10));
  a <-- lift (ld (bm_rowptr bm) node0);
  b <-- lift (ld (bm_rowptr bm) (node0 + 1));
  '(bij, y10) <-- for_ a b (fun i x =>
      node1 <-- lift (ld (bm_colidx bm) i);
      mm_mid_pair_f h get nv ldx xrs xt ldy yrs yt node0 node1 x) (bij, dm_set_data y10 d);
  _ <-- wrV false (LM0 tid) (VD bij);
  wrV false (LY1 node0) (VD y10).

(** H2Pack_matmul.c:279-346: backward sweep, iteration for [node] on thread [tid]. *)
Definition mm_bwd_node_f (h : h2rep F K) (nv ldy : Z) (yt : bool) (tid node : Z) : P unit :=
  nc <-- lift (ld (a_nchild (h_t h)) node);
  m <-- rdD false (LY1 node);
  if dm_ld m =? 0 then ret tt else
  U <-- lift (getz (h_U h) node);
  t0 <-- rdD false (LM0 tid);
  let t := dm_resize t0 (dm_nrow U) nv in
  td <-- lift (gemm false false (dm_nrow U) nv (dm_ncol U) (dm_data U) 0 (dm_ld U) (dm_data m) 0 (dm_ld m) false (dm_data t) 0 (dm_ld t));
  _ <-- wrV false (LM0 tid) (VD (dm_set_data t td));
  if nc =? 0 then
    si <-- lift (ld (h_mcl h) (2 * node));
    ei <-- lift (ld (h_mcl h) (2 * node + 1));
    let nrow := (ei - si + 1)%Z in
    if yt then
      for_ 0 nv (fun l (_ : unit) => for_ 0 nrow (fun k (_ : unit) =>
        v <-- lift (ld td (l + k * dm_ld t)%Z); addC false (LPY (l * ldy + (si + k))) v) tt) tt
    else
      for_ 0 nrow (fun k (_ : unit) => for_ 0 nv (fun l (_ : unit) =>
        v <-- lift (ld td (k * dm_ld t + l)%Z); addC false (LPY ((si + k) * ldy + l)) v) tt) tt
  else
    _ <-- for_ 0 nc (fun k idx =>
       c <-- lift (ld (a_children (h_t h)) (node * h_maxchild h + k));
       Uc <-- lift (getz (h_U h) c);
       let len := dm_ncol Uc in
       mc <-- rdD false (LY1 c);
       mc <-- (if dm_ld mc =? 0 then
                 let mc := dm_resize mc len nv in
                 d <-- lift (copy_matrix len nv td (idx * dm_ld t) (dm_ld t) (dm_data mc) 0 (dm_ld mc));
                 ret (dm_set_data mc d)
               else
                 d <-- lift (zfor 0 len (fun k0 d => zfor 0 nv (fun l d =>
                        v <- ld td (idx * dm_ld t + k0 * dm_ld t + l)%Z; madd d (k0 * dm_ld mc + l)%Z v) d) (dm_data mc));
                 ret (dm_set_data mc d));
       _ <-- wrV false (LY1 c) (VD mc);
       ret (idx + len)%Z) 0;
    ret tt.

(** H2Pack_matmul.c:379-416: pair (node0, node1) seen from node0. *)
Definition mm_den_pair_f (h : h2rep F K) (get : Z -> Z -> dmat K -> option (option (dmat K))) (nv : Z)
    (ldx xrs : Z) (xt : bool) (ldy yo : Z) (node0 node1 : Z) (dij : dmat K) : P (dmat K) :=
  xs <-- lift (ld (h_mcl h) (2 * node1));
  dij <-- lift (fetch get node0 node1 dij);
  let '(nrow, ncol, ldd, tr) := view dij in
  _ <-- (if xt then gemm_y_f false (negb tr) nv nrow ncol shx (xs * xrs) ldx (loc (dm_data dij)) 0 ldd yo ldy
         else gemm_y_f tr false nrow nv ncol (loc (dm_data dij)) 0 ldd shx (xs * xrs) ldx yo ldy);
  ret dij.

(** H2Pack_matmul.c:372-417: iteration [node0] on thread [tid]. *)
Definition mm_den_node_f (h : h2rep F K) (get : Z -> Z -> dmat K -> option (option (dmat K))) (dm : bmeta) (nv ldx xrs : Z) (xt : bool) (ldy yrs : Z)
    (tid node0 : Z) : P unit :=
  ys <-- lift (ld (h_mcl h) (2 * node0));
  dij <-- rdD false (LM0 tid);
  a <-- lift (ld (bm_rowptr dm) node0);
  b <-- lift (ld (bm_rowptr dm) (node0 + 1));
  dij <-- for_ a b (fun i x =>
      node1 <-- lift (ld (bm_colidx dm) i);
      mm_den_pair_f h get nv ldx xrs xt ldy (ys * yrs) node0 node1 x) dij;
  wrV false (LM0 tid) (VD dij).

(** What the OpenMP runtime decides during one batch: which thread gets which
    iterations, in which order. *)
Record mm_choices := MMChoices {
  mf_fwd : Z -> list (list Z); mf_mid : list (list Z); mf_bwd : Z -> list (list Z); mf_den : list (list Z)
}.
Record mm_choices_ok (h : h2rep F K) (fc : mm_choices) : Prop := {
  mfo_fwd : forall i n, h_minlevel h <= i <= h_maxlevel h -> ld (a_level_n (h_t h)) i = Some n -> omp_assign (Z.min n (h_nthread h)) n (mf_fwd fc i);
  mfo_mid : omp_assign (h_nthread h) (h_nnode h) (mf_mid fc);
  mfo_bwd : forall i n, h_minlevel h <= i <= h_maxlevel h -> ld (a_level_n (h_t h)) i = Some n -> omp_assign (Z.min n (h_nthread h)) n (mf_bwd fc i);
  mfo_den : omp_assign (h_nthread h) (h_nnode h) (mf_den fc)
}.

(** H2Pack_matmul.c:500-580: one batch of columns; [Q] holds of the buffers and
    the result however the accesses of the threads interleave in the regions of
    steps 3-6.  The permutations and the reset (steps 1, 2, 7) are the sequential
    ones of Model_Matmul.v. *)
Definition mm_batch_fine (h : h2rep F K) getB getD (bm dm : bmeta) (mmx : Z) (col : bool) (fc : mm_choices) (ivec nv : Z)
    (x : mem K) (ldx : Z) (ldy : Z) (s : mvst K) (y : mem K) (Q : mvst K -> mem K -> Prop) : Prop :=
  let xcs := if col then ldx else 1 in
  let ycs := if col then ldy else 1 in
  let ldp := if col then h_kms h else mmx in
  let prs := if col then 1 else ldp in
  after (px <- permute_rows h (h_fwd h) col nv x (ivec * xcs) ldx (s_px s) 0 ldp;
         py <- mm_reset col (h_kms h) nv ldp (s_py s); Some (set_py (set_px s px) py)) (fun s =>
  through (map (fun k => h_maxlevel h - k)%Z (zrange 0 (h_maxlevel h - h_minlevel h + 1)))
    (level_par h (fun _ node => mm_fwd_node_f h nv ldp prs col node) (mf_fwd fc)) (mm_init_y0 h nv s) (fun s =>
  after (mm_init_y1 h nv s) (fun s =>
  par false (fun '(tid, i) => mm_mid_node_f h getB bm nv ldp prs col ldp prs col tid i) (tagged (mf_mid fc)) s (fun s =>
  through (zrange (h_minlevel h) (h_maxlevel h + 1)) (level_par h (mm_bwd_node_f h nv ldp col) (mf_bwd fc)) s (fun s =>
  par false (fun '(tid, i) => mm_den_node_f h getD dm nv ldp prs col ldp prs tid i) (tagged (mf_den fc)) s (fun s =>
  match permute_rows h (h_bwd h) col nv (s_py s) 0 ldp y (ivec * ycs) ldy with Some y => Q s y | None => False end)))))).

(** H2Pack_matmul.c:460-583 H2P_matmul, batch after batch. *)
Fixpoint mm_batches_fine (h : h2rep F K) getB getD (bm dm : bmeta) (mmx : Z) (col : bool) (fc : Z -> mm_choices) (n_vec : Z)
    (x : mem K) (ldx ldy : Z) (bs : list Z) (s : mvst K) (y : mem K) (Q : mvst K -> mem K -> Prop) : Prop :=
  match bs with
  | [] => Q s y
  | b :: bs =>
    let ivec := (b * mmx)%Z in
    let nv := if ivec + mmx <=? n_vec then mmx else (n_vec - ivec)%Z in
    mm_batch_fine h getB getD bm dm mmx col (fc b) ivec nv x ldx ldy s y (fun s y =>
      mm_batches_fine h getB getD bm dm mmx col fc n_vec x ldx ldy bs s y Q)
  end.
Definition matmul_fine (h : h2rep F K) getB getD (bm dm : bmeta) (mmx : Z) (col : bool) (fc : Z -> mm_choices) (n_vec : Z)
    (s : mvst K) (x : mem K) (ldx : Z) (y : mem K) (ldy : Z) (Q : mvst K -> mem K -> Prop) : Prop :=
  let s := set_py (set_px s (alloc (h_kms h * mmx))) (alloc (h_kms h * mmx)) in
  mm_batches_fine h getB getD bm dm mmx col fc n_vec x ldx ldy (zrange 0 ((n_vec + mmx - 1) / mmx)) s y Q.
End MmFine.
