(** Models of the dense matrix helpers: src/utils.c (copy/gather), the
    H2P_dense_mat type of src/H2Pack_aux_structs.{h,c}, and matrix helpers of
    src/H2Pack_utils.c.  Entries have an arbitrary type [A]; sizes are unbounded
    integers (C int products may overflow; not modelled). *)
From Coq Require Import ZArith List Lia Bool.
From Verif Require Import Base Mem Conc Model_Utils.
Import ListNotations.
Open Scope Z_scope.

(** utils.c:92-121 copy_matrix, use_omp == 0; [soff]/[doff] are the offsets of
    the pointers in their arrays; source and destination arrays differ. *)
Definition copy_matrix {A} (nrow ncol : Z) (src : mem A) (soff lds : Z) (dst : mem A) (doff ldd : Z)
    : option (mem A) :=
  zfor 0 nrow (fun irow d => mcpy d (doff + irow * ldd) src (soff + irow * lds) ncol) dst.

(** utils.c:92-121, one row of copy_matrix as a thread's atomic stores: element
    by element (use_omp != 0, utils.c:110-119). *)
Definition copy_row_acts {A} (ncol : Z) (src : mem A) (soff lds doff ldd irow : Z) : list (act (mem A)) :=
  map (fun k d => c <- getz src (soff + irow * lds + k); setz d (doff + irow * ldd + k) c) (zrange 0 ncol).

(** utils.c:124-153 gather_vector_elements (all element sizes behave alike). *)
Definition gather_vector_elements {A} (nelem : Z) (idx : list Z) (src : mem A) (soff : Z) (dst : mem A) (doff : Z)
    : option (mem A) :=
  zfor 0 nelem (fun i d => j <- getz idx i; v <- ld src (soff + j); st d (doff + i) v) dst.

(** utils.c:156-175 gather_matrix_rows (sequential order; rows are independent). *)
Definition gather_matrix_rows {A} (nrow ncol : Z) (idx : list Z) (src : mem A) (lds : Z) (dst : mem A) (ldd : Z)
    : option (mem A) :=
  zfor 0 nrow (fun irow d => j <- getz idx irow; mcpy d (irow * ldd) src (j * lds) ncol) dst.

(** utils.c:178-196 gather_matrix_cols and H2Pack_utils.c:32-44
    H2P_gather_matrix_columns (same loops). *)
Definition gather_matrix_cols {A} (nrow ncol : Z) (idx : list Z) (src : mem A) (lds : Z) (dst : mem A) (ldd : Z)
    : option (mem A) :=
  zfor 0 nrow (fun irow d => gather_vector_elements ncol idx src (irow * lds) d (irow * ldd)) dst.

(** H2Pack_aux_structs.h:132-140 struct H2P_dense_mat. *)
Record dmat (A : Type) := mkDM { dm_nrow : Z; dm_ncol : Z; dm_ld : Z; dm_size : Z; dm_data : mem A }.
Arguments mkDM {A}. Arguments dm_nrow {A}. Arguments dm_ncol {A}. Arguments dm_ld {A}.
Arguments dm_size {A}. Arguments dm_data {A}.

(** H2Pack_aux_structs.c:144-162 H2P_dense_mat_init. *)
Definition dm_init {A} (nrow ncol : Z) : dmat A :=
  let r := Z.max 0 nrow in let c := Z.max 0 ncol in mkDM r c c (r * c) (alloc (r * c)).

(** H2Pack_aux_structs.c:175-184 H2P_dense_mat_reset. *)
Definition dm_reset {A} (m : dmat A) : dmat A := mkDM 0 0 0 0 [].

(** H2Pack_aux_structs.h:186-199 H2P_dense_mat_resize. *)
Definition dm_resize {A} (m : dmat A) (nrow ncol : Z) : dmat A :=
  let new_size := nrow * ncol in
  if dm_size m <? new_size then mkDM nrow ncol ncol new_size (alloc new_size)
  else mkDM nrow ncol ncol (dm_size m) (dm_data m).

Definition dm_set_data {A} (m : dmat A) (d : mem A) : dmat A :=
  mkDM (dm_nrow m) (dm_ncol m) (dm_ld m) (dm_size m) d.

(** H2Pack_aux_structs.c:187-191 H2P_dense_mat_copy (distinct objects). *)
Definition dm_copy {A} (src dst : dmat A) : option (dmat A) :=
  let d := dm_resize dst (dm_nrow src) (dm_ncol src) in
  x <- copy_matrix (dm_nrow src) (dm_ncol src) (dm_data src) 0 (dm_ld src) (dm_data d) 0 (dm_ld d);
  Some (dm_set_data d x).

(** H2Pack_aux_structs.c:194-210 H2P_dense_mat_permute_rows. *)
Definition dm_permute_rows {A} (m : dmat A) (p : list Z) : option (dmat A) :=
  let nrow := dm_nrow m in let ncol := dm_ncol m in
  x <- zfor 0 nrow (fun irow d => pi <- getz p irow; mcpy d (irow * ncol) (dm_data m) (pi * dm_ld m) ncol)
         (alloc (nrow * ncol));
  Some (mkDM nrow ncol ncol (nrow * ncol) x).

(** memcpy inside one array: overlapping ranges are undefined behaviour. *)
Definition mcpy_in {A} (m : mem A) (doff soff n : Z) : option (mem A) :=
  if (n <=? 0) then Some m
  else if (doff + n <=? soff) || (soff + n <=? doff) then mcpy m doff m soff n else None.

(** memmove inside one array. *)
Definition mmove {A} (m : mem A) (doff soff n : Z) : option (mem A) := mcpy m doff m soff n.

(** H2Pack_aux_structs.c:213-222 H2P_dense_mat_select_rows. *)
Definition dm_select_rows {A} (m : dmat A) (row_idx : list Z) : option (dmat A) :=
  x <- zfor 0 (zlen row_idx) (fun irow d =>
         j <- getz row_idx irow;
         let src := j * dm_ld m in let dst := irow * dm_ld m in
         if src =? dst then Some d else mcpy_in d dst src (dm_ncol m)) (dm_data m);
  Some (mkDM (zlen row_idx) (dm_ncol m) (dm_ld m) (dm_size m) x).

(** H2Pack_aux_structs.c:225-241 H2P_dense_mat_select_columns. *)
Definition dm_select_columns {A} (m : dmat A) (col_idx : list Z) : option (dmat A) :=
  x <- zfor 0 (dm_nrow m) (fun irow d =>
         zfor 0 (zlen col_idx) (fun icol d =>
           j <- getz col_idx icol;
           v <- ld d (irow * dm_ld m + j);
           st d (irow * dm_ld m + icol) v) d) (dm_data m);
  let ncol := zlen col_idx in
  y <- zfor 1 (dm_nrow m) (fun irow d => mmove d (irow * ncol) (irow * dm_ld m) ncol) x;
  Some (mkDM (dm_nrow m) ncol ncol (dm_size m) y).

(** Sum over the selected matrices, the counting loops of blkdiag / vertcat /
    horzcat (H2Pack_aux_structs.c:323-329, 348-358, 375-385). *)
Definition sum_over {A} (f : dmat A -> Z) (mats : list (dmat A)) (idx : list Z) : option Z :=
  zfor 0 (zlen idx) (fun i s => j <- getz idx i; m <- getz mats j; Some (s + f m)) 0.

(** memset(data, 0, n elements). *)
Definition mzero {A} (z : A) (d : mem A) (n : Z) : option (mem A) := zfor 0 n (fun k d => st d k z) d.

(** H2Pack_aux_structs.c:321-343 H2P_dense_mat_blkdiag. *)
Definition dm_blkdiag {A} (z : A) (mats : list (dmat A)) (idx : list Z) (new_mat : dmat A) : option (dmat A) :=
  nrow <- sum_over dm_nrow mats idx;
  ncol <- sum_over dm_ncol mats idx;
  let nm := dm_resize new_mat nrow ncol in
  d0 <- mzero z (dm_data nm) (nrow * ncol);
  '(r, c, d) <- zfor 0 (zlen idx) (fun i s => let '(r, c, d) := s in
      j <- getz idx i; m <- getz mats j;
      d' <- copy_matrix (dm_nrow m) (dm_ncol m) (dm_data m) 0 (dm_ld m) d (r * dm_ld nm + c) (dm_ld nm);
      Some (r + dm_nrow m, c + dm_ncol m, d')) (0, 0, d0);
  Some (dm_set_data nm d).

(** The size check of vertcat / horzcat (H2Pack_aux_structs.c:352-356,
    379-383): on a mismatch the function returns leaving new_mat untouched. *)
Definition all_match {A} (f : dmat A -> Z) (v : Z) (mats : list (dmat A)) (idx : list Z) : option bool :=
  zfor 0 (zlen idx) (fun i b => j <- getz idx i; m <- getz mats j; Some (b && (f m =? v))) true.

(** H2Pack_aux_structs.c:346-370 H2P_dense_mat_vertcat. *)
Definition dm_vertcat {A} (mats : list (dmat A)) (idx : list Z) (new_mat : dmat A) : option (dmat A) :=
  j0 <- getz idx 0; m0 <- getz mats j0;
  let ncol := dm_ncol m0 in
  ok <- all_match dm_ncol ncol mats idx;
  if negb ok then Some new_mat else
  nrow <- sum_over dm_nrow mats idx;
  let nm := dm_resize new_mat nrow ncol in
  '(r, d) <- zfor 0 (zlen idx) (fun i s => let '(r, d) := s in
      j <- getz idx i; m <- getz mats j;
      d' <- copy_matrix (dm_nrow m) (dm_ncol m) (dm_data m) 0 (dm_ld m) d (r * dm_ld nm) (dm_ld nm);
      Some (r + dm_nrow m, d')) (0, dm_data nm);
  Some (dm_set_data nm d).

(** H2Pack_aux_structs.c:373-398 H2P_dense_mat_horzcat. *)
Definition dm_horzcat {A} (z : A) (mats : list (dmat A)) (idx : list Z) (new_mat : dmat A) : option (dmat A) :=
  j0 <- getz idx 0; m0 <- getz mats j0;
  let nrow := dm_nrow m0 in
  ok <- all_match dm_nrow nrow mats idx;
  if negb ok then Some new_mat else
  ncol <- sum_over dm_ncol mats idx;
  let nm := dm_resize new_mat nrow ncol in
  d0 <- mzero z (dm_data nm) (nrow * ncol);
  '(c, d) <- zfor 0 (zlen idx) (fun i s => let '(c, d) := s in
      j <- getz idx i; m <- getz mats j;
      d' <- copy_matrix (dm_nrow m) (dm_ncol m) (dm_data m) 0 (dm_ld m) d c (dm_ld nm);
      Some (c + dm_ncol m, d')) (0, d0);
  Some (dm_set_data nm d).

(** H2Pack_utils.c:486-524 H2P_transpose_dmat: the stores of a thread that
    handles destination rows [i0,i1) and columns [j0,j1), in loop order. *)
Definition transpose_acts {A} (src : mem A) (lds ldd i0 i1 j0 j1 : Z) : list (act (mem A)) :=
  flat_map (fun i => map (fun j d => v <- ld src (j * lds + i); st d (i * ldd + j) v) (zrange j0 j1))
    (zrange i0 i1).

(** H2Pack_utils.c:491-523: the action sequences of the threads.  n_thread == 1
    (491-498): one thread.  src_nrow > src_ncol (500-508): "omp parallel for"
    over rows; the schedule is unspecified, so each iteration is its own thread.
    Otherwise (509-522): columns split with calc_block_spos_len. *)
Definition transpose_threads {A} (n_thread src_nrow src_ncol : Z) (src : mem A) (lds ldd : Z)
    : option (list (list (act (mem A)))) :=
  if n_thread =? 1 then Some [transpose_acts src lds ldd 0 src_ncol 0 src_nrow]
  else if src_ncol <? src_nrow then
    Some (map (fun i => transpose_acts src lds ldd i (i + 1) 0 src_nrow) (zrange 0 src_ncol))
  else
    zfor 0 n_thread (fun tid l =>
      '(spos, len) <- calc_block_spos_len src_nrow n_thread tid;
      Some (l ++ [transpose_acts src lds ldd 0 src_ncol spos (spos + len)])) [].
