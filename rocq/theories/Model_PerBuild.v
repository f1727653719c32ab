(** Model of H2P_build_periodic (src/H2Pack_build_periodic.c).  Not modelled: the
    three error returns at the top (no proxy points, no kernel, BD_JIT != 1:
    nothing is built), the timers.  The bases and skeletons (line 117,
    H2P_build_H2_UJ_proxy, see Model_UJ.v) are arguments. *)
From Coq Require Import ZArith QArith List Lia Bool Permutation.
From Verif Require Import Base Mem Num CRing Model_Utils Model_Dense Model_Partition Model_CSR Model_Pairs Model_Matvec Model_Build Model_Periodic.
Import ListNotations.
Open Scope Z_scope.

Section PerBuild.
Context {F : num} {K : cring}.
Variables kern pkern : list F -> list F -> Z -> Z -> K.

(** H2Pack_config.h:106 *)
Definition BD_NTASK_THREAD : Z := 10.

(** The list of pairs in an array r_adm_pairs / r_inadm_pairs: pair i is
    (cell 2i, cell 2i+1).  (The code reads the array where it needs a pair; here
    it is read once.) *)
Definition pairs_in (m : mem Z) : option (list (Z * Z)) :=
  zfor 0 (zlen m / 2) (fun i acc => a <- ld m (i * 2 + 0); b <- ld m (i * 2 + 1); Some (acc ++ [(a, b)])) [].

(** H2Pack_build_periodic.c:77-157 H2P_build_periodic.  [adm], [inadm]: the
    arrays and shifts left by H2P_partition_points_periodic; [ordB], [ordD]: the
    order of the parallel loop of H2P_int_COO_to_CSR; [m0], [m1]: mat0 and mat1 of
    thread 0. *)
Definition build_periodic (pt_dim xpt_dim kdim n_point n_thread : Z) (t : tree_result F) (n_lattice : Z) (lattices : mem F)
    (adm inadm : mem Z * mem F) (U : list (dmat K)) (J : list int_vec) (Jc : list (dmat F)) (blkB blkD0 blkD1 : int_vec) (ordB ordD : list Z)
    (m0 : dmat F) (m1 : dmat K) : option (h2rep F K * pctx F K) :=
  let a := r_arrays t in
  let n_node := r_n_node t in
  apairs <- pairs_in (fst adm);
  ipairs <- pairs_in (fst inadm);
  mcl <- mat_clusters kdim n_node (a_cluster a);
  '(bm, nr, bB) <- gen_B_metadata kdim n_node n_thread BD_NTASK_THREAD true (a_level a) (a_cluster a) J apairs ordB blkB;     (* 122-126 *)
  '(dm, bD0, bD1) <- gen_D_metadata kdim n_node (r_n_leaf t) n_thread BD_NTASK_THREAD true (a_height_nodes a) (a_cluster a) ipairs ordD blkD0 blkD1; (* 128-132 *)
  jr <- getz Jc (n_node - 1);
  blk <- per_block kern pkern xpt_dim pt_dim kdim n_lattice jr (fun j => ld (a_box a) ((n_node - 1) * (2 * pt_dim) + pt_dim + j)) lattices m0 m1; (* 135 *)
  '(fwd, bwd) <- pmt_indices n_point kdim (r_idx t);                                                                      (* 139-156 *)
  fwd <- read_cells fwd 0 (n_point * kdim);
  bwd <- read_cells bwd 0 (n_point * kdim);
  jroot <- getz J (n_node - 1);
  Some ({| h_ptdim := pt_dim; h_npoint := n_point; h_kdim := kdim; h_nthread := n_thread; h_nnode := n_node;
           h_maxchild := 2 ^ pt_dim; h_nleaf := r_n_leaf t; h_maxlevel := r_max_level t; h_minlevel := 0;
           h_kms := kdim * n_point; h_t := a; h_mcl := mcl; h_U := U; h_adm := apairs; h_inadm := ipairs; h_nr := nr;
           h_Bnrow := bm_nrow bm; h_Bncol := bm_ncol bm; h_Bptr := bm_ptr bm; h_Bdata := [];
           h_Dnrow := bm_nrow dm; h_Dncol := bm_ncol dm; h_Dptr := bm_ptr dm; h_Ddata := [];
           h_Bblk := bB; h_D0blk := bD0; h_D1blk := bD1; h_fwd := fwd; h_bwd := bwd |},
        {| q_xdim := xpt_dim; q_dim := pt_dim; q_kdim := kdim; q_npoint := n_point; q_coord := r_coord t; q_Jc := Jc;
           q_cluster := a_cluster a; q_nleaf := r_n_leaf t; q_shB := snd adm; q_shD := snd inadm; q_bm := bm; q_dm := dm;
           q_blk := blk; q_Jroot := iv_len jroot |}).
End PerBuild.
