(** Model of H2P_build_H2_UJ_proxy (src/H2Pack_build.c:27-270): projection
    matrices and skeletons of all nodes from proxy points.  Coordinates are an
    arbitrary [num], kernel values and projection matrices an arbitrary [fnum]
    (both are DTYPE in the code).  H2_UJ_BUILD_RANDOMIZE is not defined, as in
    the Makefiles; timers and the mat_size statistics are left out. *)
From Coq Require Import ZArith QArith List Lia Bool Permutation.
From Verif Require Import Base Mem Num FNum Conc Model_Utils Model_Dense Model_Partition Model_Build Model_ID.
Import ListNotations.
Open Scope Z_scope.

Section UJ.
Context {F : num} {E : fnum}.
Variable kern : list F -> list F -> Z -> Z -> E.

(** H2Pack_aux_structs.h: the fields of a thread's buffer used here (mat0: the
    kernel block, mat1: coordinates, idx0: output of the decomposition).  mat2
    and idx1 are scratch of H2P_ID_compress, fresh in its model. *)
Record tbuf := TBuf { tb_mat0 : dmat E; tb_mat1 : dmat F; tb_idx0 : int_vec }.

(** The arrays U, J, J_coord ([None]: NULL) and the threads' buffers. *)
Record ust := UST { u_U : list (option (dmat E)); u_J : list (option int_vec); u_Jc : list (option (dmat F)); u_tb : list tbuf }.

(** What the function reads of the H2Pack structure: pt_dim, xpt_dim, krnl_dim,
    n_point, coord, the tree, the proxy points per level, sizeof(DTYPE) == 8 and
    the stopping rule. *)
Record uctx := UCtx {
  c_ptdim : Z; c_dim : Z; c_kdim : Z; c_npoint : Z; c_coord : mem F; c_t : tarrays F; c_pp : list (dmat F);
  c_dbl : bool; c_stop : @stop E
}.

(** [getz] through a pointer that must not be NULL. *)
Definition getp {A} (l : list (option A)) (i : Z) : option A := o <- getz l i; o.

Definition child_of (c : uctx) (node k : Z) : option Z := ld (a_children (c_t c)) (node * 2 ^ c_ptdim c + k).

(** H2Pack_build.c:106-116: a leaf's points and their coordinates. *)
Definition uj_leaf (c : uctx) (node : Z) : option (int_vec * dmat F) :=
  s <- ld (a_cluster (c_t c)) (node * 2);
  e <- ld (a_cluster (c_t c)) (node * 2 + 1);
  let npt := e - s + 1 in
  let v := iv_init npt in
  d <- zfor 0 npt (fun k d => st d k (s + k)) (iv_data v);
  let jc := dm_init (c_dim c) npt in
  x <- copy_matrix (c_dim c) npt (c_coord c) s (c_npoint c) (dm_data jc) 0 npt;
  Some (mkIV (iv_cap v) npt d, dm_set_data jc x).

(** H2Pack_build.c:117-133: the children's skeleton points. *)
Definition uj_parent (c : uctx) (J : list (option int_vec)) (node : Z) : option int_vec :=
  nc <- ld (a_nchild (c_t c)) node;
  size <- zfor 0 nc (fun k acc => ch <- child_of c node k; j <- getp J ch; Some (acc + iv_len j)) 0;
  zfor 0 nc (fun k v => ch <- child_of c node k; j <- getp J ch; iv_concatenate v j) (iv_init size).

(** H2Pack_build.c:146-160: the children's skeleton coordinates side by side. *)
Definition uj_gather (c : uctx) (J : list (option int_vec)) (Jc : list (option (dmat F))) (node ldd : Z) (d : mem F) : option (mem F) :=
  nc <- ld (a_nchild (c_t c)) node;
  '(_, d) <- zfor 0 nc (fun k (x : Z * mem F) => let '(off, d) := x in
      ch <- child_of c node k;
      m <- getp Jc ch;
      d <- copy_matrix (c_dim c) (dm_ncol m) (dm_data m) 0 (dm_ncol m) d off ldd;
      j <- getp J ch;
      Some (off + iv_len j, d)) (0, d);
  Some d.

(** H2Pack_build.c:162-172: the node's box centre becomes the origin. *)
Definition uj_shift (c : uctx) (node npt : Z) (d : mem F) : option (mem F) :=
  zfor 0 (c_ptdim c) (fun k d =>
    lo <- ld (a_box (c_t c)) (node * 2 * c_ptdim c + k);
    w <- ld (a_box (c_t c)) (node * 2 * c_ptdim c + (c_ptdim c + k));
    let centre := nadd lo (nmul (nlit (1 # 2)%Q) w) in
    zfor 0 npt (fun l d => x <- ld d (k * npt + l); st d (k * npt + l) (nsub x centre)) d) d.

(** H2Pack_build.c:225-235: the chosen points, in place, and their coordinates;
    [len0] = J[node]->length before. *)
Definition uj_choose (c : uctx) (v sub : int_vec) (jc : option (dmat F)) : option (int_vec * dmat F) :=
  d <- zfor 0 (iv_len sub) (fun k d => i <- ld (iv_data sub) k; x <- ld d i; st d k x) (iv_data v);
  let len := iv_len sub in
  let m := match jc with None => dm_init (c_dim c) len | Some m => dm_resize m (c_dim c) len end in
  idx <- read_cells d 0 len;
  x <- gather_matrix_cols (c_dim c) len idx (c_coord c) (c_npoint c) (dm_data m) len;
  Some (mkIV (iv_cap v) len d, dm_set_data m x).

(** H2Pack_build.c:97-240: thread [tid] processes [node]. *)
Definition uj_node (c : uctx) (tid node : Z) (s : ust) : option ust :=
  tb <- getz (u_tb s) tid;
  height <- ld (a_height (c_t c)) node;
  level <- ld (a_level (c_t c)) node;
  '(v, jc) <- (if height =? 0 then '(v, m) <- uj_leaf c node; Some (v, Some m)
               else v <- uj_parent c (u_J s) node; Some (v, None));
  let npt := iv_len v in
  let m1 := dm_resize (tb_mat1 tb) (c_dim c) npt in
  d1 <- match jc with
        | Some m => copy_matrix (c_dim c) npt (dm_data m) 0 (dm_ld m) (dm_data m1) 0 (dm_ld m1)
        | None => uj_gather c (u_J s) (u_Jc s) node (dm_ncol m1) (dm_data m1)
        end;
  d1 <- uj_shift c node npt d1;
  pp <- getz (c_pp c) level;
  let npp := dm_ncol pp in
  let A := dm_resize (tb_mat0 tb) (npt * c_kdim c) (npp * c_kdim c) in
  dA <- krnl_eval kern (c_dim c) (c_kdim c) d1 0 npt npt (dm_data pp) 0 npp npp (dm_data A) 0 (dm_ld A);
  let n := dm_nrow A in
  '(A, sub, U) <- id_compress (c_dbl c) (c_stop c) (c_kdim c) true (zrange 0 n)
      (fun i => if c_kdim c =? 1 then zrange 0 (n - i - 1) else zrange (i + 1) (n / c_kdim c)) (dm_set_data A dA) (tb_idx0 tb);
  '(v, m) <- uj_choose c v sub jc;
  lU <- setz (u_U s) node U;
  lJ <- setz (u_J s) node (Some v);
  lJc <- setz (u_Jc s) node (Some m);
  ltb <- setz (u_tb s) tid (TBuf A (dm_set_data m1 d1) sub);
  Some (UST lU lJ lJc ltb).

(** H2Pack_build.c:255-280: nodes that were not touched. *)
Definition unset_mat {A} (o : option (dmat A)) : dmat A :=
  match o with Some m => m | None => mkDM 0 0 0 (dm_size (@dm_init A 1 1)) (dm_data (@dm_init A 1 1)) end.
Definition unset_vec (o : option int_vec) : int_vec := match o with Some v => v | None => iv_init 1 end.

(** H2Pack_build.c:32-270.  [evs]: which thread processed which node, in the
    order in which the threads were done.  (A thread only writes its own buffer
    and the entries of its node, and only reads entries of nodes that were
    finished before it got its own, so the order is all that matters.)  The
    threads' buffers are reset at the end. *)
Definition h2_UJ_proxy (c : uctx) (n_node : Z) (tb : list tbuf) (evs : list (Z * Z))
    : option (list (dmat E) * list int_vec * list (dmat F)) :=
  s <- run (map (fun ev => uj_node c (fst ev) (snd ev)) evs) (UST (arr n_node None) (arr n_node None) (arr n_node None) tb);
  Some (map unset_mat (u_U s), map unset_vec (u_J s), map unset_mat (u_Jc s)).
End UJ.
Arguments uctx : clear implicits.
Arguments tbuf : clear implicits.
Arguments ust : clear implicits.
