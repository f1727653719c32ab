{
 "claims": [
  {
   "property": "C01",
   "status": "proved",
   "theorems": [
    "C01_prerequisites_finished_first"
   ],
   "note": "All interleavings of any number of threads; one step per atomic operation; sequentially consistent memory as in the code's __ATOMIC_SEQ_CST."
  },
  {
   "property": "C02",
   "status": "proved",
   "theorems": [
    "C02_all_tasks_handed_out",
    "C02_each_task_at_most_once",
    "C02_minus_one_only_when_all_claimed"
   ],
   "note": ""
  },
  {
   "property": "C03",
   "status": "proved",
   "theorems": [
    "C03_init_in_bounds",
    "C03_slot_written_once",
    "C03_steps_in_bounds"
   ],
   "note": ""
  },
  {
   "property": "C04",
   "status": "proved",
   "theorems": [
    "C04_bounded_work",
    "C04_no_deadlock"
   ],
   "note": "Deadlock freedom in every reachable state plus a bound on productive steps of every execution."
  },
  {
   "property": "C05",
   "status": "proved",
   "theorems": [
    "C05_reset_is_init"
   ],
   "note": ""
  },
  {
   "property": "C06",
   "status": "proved",
   "theorems": [
    "C06_children_before_parents",
    "C06_graph_of_partition",
    "C06_periodic_graph",
    "C06_single_node_refuted",
    "C06_upward_dag"
   ],
   "note": "Holds for every partition tree with at least two nodes (C06_graph_of_partition) and for the periodic graph; false for a one-node tree: _refuted theorem."
  },
  {
   "property": "C07",
   "status": "proved",
   "theorems": [
    "C07_blocks_tile",
    "C07_rejects_nblk_refuted",
    "C07_rejects_out_of_range"
   ],
   "note": "Index nblk is accepted although out of range: _refuted theorem."
  },
  {
   "property": "C08",
   "status": "proved",
   "theorems": [
    "C08_covers_all_items_refuted",
    "C08_partition_workload"
   ],
   "note": "The literal 'covers every item' is false for trailing zero-cost items: _refuted theorem."
  },
  {
   "property": "C09",
   "status": "proved",
   "theorems": [
    "C09_capacity_zero_refuted",
    "C09_gather",
    "C09_history_refines_sequence",
    "C09_init"
   ],
   "note": "Capacity 0 breaks push_back: _refuted theorem."
  },
  {
   "property": "C10",
   "status": "proved",
   "theorems": [
    "C10_blkdiag",
    "C10_copy",
    "C10_copy_matrix",
    "C10_copy_matrix_parallel",
    "C10_gather_columns",
    "C10_gather_rows",
    "C10_horzcat",
    "C10_permute_rows",
    "C10_transpose",
    "C10_vertcat",
    "C10_vertcat_mismatch"
   ],
   "note": ""
  },
  {
   "property": "C11",
   "status": "proved",
   "theorems": [
    "C11_arbitrary_order_refuted",
    "C11_select_columns",
    "C11_select_rows"
   ],
   "note": "Index lists must be strictly increasing, as all callers ensure; for arbitrary lists the operation is wrong: _refuted theorem."
  },
  {
   "property": "C12",
   "status": "proved",
   "theorems": [
    "C12_coo_to_csr",
    "C12_empty_matrix_refuted",
    "C12_get",
    "C12_set"
   ],
   "note": "At least one entry; with none the row pointers are not set: _refuted theorem."
  },
  {
   "property": "C13",
   "status": "proved",
   "theorems": [
    "C13_partition_permutes_points"
   ],
   "note": "Any arithmetic (rounding included)."
  },
  {
   "property": "C14",
   "status": "proved",
   "theorems": [
    "C14_cluster_tree"
   ],
   "note": "Any arithmetic (rounding included)."
  },
  {
   "property": "C15",
   "status": "proved",
   "theorems": [
    "C15_points_in_boxes"
   ],
   "note": "Exact rational arithmetic; a rounding error can move a point over a box face, so no claim is made for floating point."
  },
  {
   "property": "C16",
   "status": "proved",
   "theorems": [
    "C16_leaf_rule",
    "C16_terminates_for_spread_points",
    "C16_terminates_when_halving_reaches_limit",
    "C16_terminates_with_size_limit",
    "C16_unconditional_termination_refuted"
   ],
   "note": "Leaf rule for any arithmetic; termination under three sufficient conditions; unconditional termination is false (coincident points): _refuted theorem."
  },
  {
   "property": "C17",
   "status": "proved",
   "theorems": [
    "C17_every_entry_covered_once"
   ],
   "note": "Any arithmetic, any threshold (H2 and HSS)."
  },
  {
   "property": "C18",
   "status": "proved",
   "theorems": [
    "C18_HSS_level_one_child_refuted",
    "C18_HSS_level_refuted",
    "C18_no_pair_twice",
    "C18_pairs_classified"
   ],
   "note": "Any arithmetic, any threshold. The HSS assertion 'minimal admissible level is 1' is false for two families of inputs: _refuted theorems."
  },
  {
   "property": "C19",
   "status": "proved",
   "theorems": [
    "C19_matvec_applies_the_operator",
    "C19_rank_zero_refuted"
   ],
   "note": "Exact arithmetic (any commutative ring), stored blocks (BD_JIT=0), every node on a compressed level of positive rank; BLAS gemv as documented. With a rank-0 node it is false: _refuted theorem."
  },
  {
   "property": "C20",
   "status": "proved",
   "theorems": [
    "C20_default_team_refuted",
    "C20_matvec_schedule_independent"
   ],
   "note": "Any schedule, thread count, work blocks; the team in init_y1 must have the handle's number of threads, otherwise memory errors: _refuted theorem."
  },
  {
   "property": "C21",
   "status": "proved",
   "theorems": [
    "C21_empty_skeleton_refuted",
    "C21_jit_equals_stored_blocks",
    "C21_wide_block_refuted"
   ],
   "note": "H2P_build and H2P_matvec with BD_JIT==1, with a user kernel evaluation or a user bi-matvec; exact arithmetic (any commutative ring); kernel dimensions, SIMD padding and buffer resizing as in the code (padding points are evaluated at coordinate 0 and multiplied by 0). Without a bi-matvec, one point's rows of every block must fit the 128 KB temporary (C21_wide_block_refuted: else the loop never ends); ranks must be positive (C21_empty_skeleton_refuted)."
  },
  {
   "property": "C22",
   "status": "proved",
   "theorems": [
    "C22_exact_blocks_give_the_kernel_product"
   ],
   "note": "Coverage of the pairs is what C17 proves; symmetric kernel matrix as the code assumes."
  },
  {
   "property": "C23",
   "status": "proved",
   "theorems": [
    "C23_permutations_inverse"
   ],
   "note": "H2P_build's index arrays and the vector permutations; the matrix versions are in the matmul theorems (C29)."
  },
  {
   "property": "C24",
   "status": "proved",
   "theorems": [
    "C24_independent_of_schedule",
    "C24_skeleton"
   ],
   "note": "The whole of H2Pack_ID_compress.c is modelled (column-pivoted QR for kdim = 1, block version for kdim > 1, triangular solve, sorting, permutation). Proved for an arbitrary arithmetic (no algebraic law assumed) whose division always returns a value, as IEEE division does, for every matrix, stopping rule and schedule of the parallel loops. Preconditions: n >= 1, n a multiple of kdim; for kdim > 1 the block swap needs n * ld cells in the buffer."
  },
  {
   "property": "C25",
   "status": "proved",
   "theorems": [
    "C25_best",
    "C25_core",
    "C25_dependent_group_refuted",
    "C25_residual",
    "C25_zero_matrix_refuted"
   ],
   "note": "Exact real arithmetic (Coq's Reals). Stated for kdim = 1 unconditionally and for kdim > 1 provided the decomposition returns (no division by zero). A zero matrix with a relative tolerance and a group of linearly dependent rows make it divide by zero: _refuted theorems."
  },
  {
   "property": "C26",
   "status": "proved",
   "theorems": [
    "C26_build_fills_disjoint_slots_with_the_kernel",
    "C26_no_pairs_refuted",
    "C26_small_team_refuted"
   ],
   "note": "Any kernel (scalar or matrix valued), any schedule; the first build phase (bases and skeletons) enters through its output's shape. False without an admissible pair, and with a thread team smaller than n_thread: _refuted theorems."
  },
  {
   "property": "C27",
   "status": "proved",
   "theorems": [
    "C27_block_retrieval"
   ],
   "note": "Stored blocks and on-the-fly evaluation (BD_JIT=1) return the same."
  },
  {
   "property": "C28",
   "status": "partial",
   "theorems": [
    "C28_extended_points_refused",
    "C28_read_step_13_refuted",
    "C28_store_then_read_restores_partial",
    "C28_zero_coordinate_refuted"
   ],
   "note": "H2 mode, BD_JIT=0 on reading, steps 1-12 of H2P_read_from_file; coordinates with 16 hex digits, U stored without gaps. Missing: HSS mode, BD_JIT=1. Step 13 and coordinate 0: _refuted theorems."
  },
  {
   "property": "C29",
   "status": "proved",
   "theorems": [
    "C29_exact_interpolation_gives_the_kernel_product",
    "C29_matmul_is_matvec_of_each_column"
   ],
   "note": "H2P_matmul in row- and column-major layout, any number of columns and any mm_max_n_vec >= 1, equals H2P_matvec column by column (exact arithmetic); BLAS gemm/omatcopy as documented; int overflow of offset products not modelled."
  },
  {
   "property": "C30",
   "status": "proved",
   "theorems": [
    "C30_independent_of_mixed_history",
    "C30_matvec_independent_of_history",
    "C30_rank_zero_refuted"
   ],
   "note": "Any history of calls from freshly allocated buffers with any contents; false with a rank-0 node: _refuted theorem."
  },
  {
   "property": "C31",
   "status": "proved",
   "theorems": [
    "C31_matmul_race_free",
    "C31_matvec_interleavings_agree",
    "C31_matvec_race_free"
   ],
   "note": "matvec (ahead of time) and matmul at the granularity of single memory accesses, any interleaving. y0[n], y1[n] and the thread buffers count as one location where an item owns them; in the matvec pair loop y1 is split into cells. The loops that only zero the output and the permutations are sequential in the model."
  },
  {
   "property": "C32",
   "status": "proved",
   "theorems": [
    "C32_matvec_linear",
    "C32_matvec_symmetric"
   ],
   "note": "Exact arithmetic; symmetry needs symmetric diagonal blocks (symmetric kernel)."
  },
  {
   "property": "C33",
   "status": "proved",
   "theorems": [
    "C33_periodic_arrays",
    "C33_periodic_coverage"
   ],
   "note": "Up to four dimensions (size of the code's local arrays). Shifts below 1e-10 count as zero, as in the code."
  },
  {
   "property": "C34",
   "status": "proved",
   "theorems": [
    "C34_exact_interpolation_gives_the_kernel_product"
   ],
   "note": "Exact arithmetic. That the interpolative decomposition interpolates is C25."
  },
  {
   "property": "C35",
   "status": "proved",
   "theorems": [
    "C35_bases_for_every_schedule"
   ],
   "note": "Any kernel, any stopping rule, any arithmetic with total division (IEEE-like), any thread team, any order the DAG queue can produce; node bodies are atomic steps. The alternative outcome in the statement is a node with an empty skeleton (zero block), where the code goes on to read a 0-row block."
  },
  {
   "property": "C36",
   "status": "proved",
   "theorems": [
    "C36_every_basis_meets_the_tolerance",
    "C36_far_field_error"
   ],
   "note": "Real arithmetic. For kdim = 1 the run is proved to return; for kdim > 1 the statement is conditional on returning (a zero pivot inside a group stops the model, see C25_dependent_group_refuted)."
  },
  {
   "property": "C37",
   "status": "proved",
   "theorems": [
    "C37_result_independent_of_schedule"
   ],
   "note": "All block sizes, any arithmetic with total division; two arbitrary thread teams and queue schedules. Uses functional extensionality from the standard library."
  },
  {
   "property": "C38",
   "status": "proved",
   "theorems": [
    "C38_points_to_product",
    "C38_product_error"
   ],
   "note": "Exact (real) arithmetic, AOT mode. Relative or absolute tolerances (with a prescribed rank there is no bound). For kdim > 1 conditional on the construction of the bases returning. The amplification factor lam is a row-sum bound of the computed bases, shown to exist (row_sums_exist); T, W, lam appear in the statement."
  },
  {
   "property": "C39",
   "status": "proved",
   "theorems": [
    "C39_pcg_reports_true_residual",
    "C39_pcg_terminates_in_any_arithmetic",
    "C39_res_vec_is_not_relative_refuted",
    "C39_zero_right_hand_side_refuted"
   ],
   "note": "A zero right-hand side makes relres 0/0, and res_vec holds absolute norms although documented as relative: _refuted theorems."
  },
  {
   "property": "C40",
   "status": "proved",
   "theorems": [
    "C40_pcg_converges_in_n_steps",
    "C40_pcg_smallest_energy_error"
   ],
   "note": "Exact real arithmetic."
  },
  {
   "property": "C41",
   "status": "proved",
   "theorems": [
    "C41_periodic_product_applies_the_operator"
   ],
   "note": "Hper in Spec_Periodic.v is the operator."
  },
  {
   "property": "C42",
   "status": "proved",
   "theorems": [
    "C42_periodic_build_and_product"
   ],
   "note": "Bases and skeletons are inputs (their construction is C24/C36)."
  },
  {
   "property": "C43",
   "status": "proved",
   "theorems": [
    "C43_periodic_product_is_the_periodic_kernel"
   ],
   "note": "Needs one unshifted lattice and an exact shift back; C45 discharges both for the built-in lattices in exact arithmetic."
  },
  {
   "property": "C44",
   "status": "proved",
   "theorems": [
    "C44_periodic_product_error"
   ],
   "note": "Exact real arithmetic."
  },
  {
   "property": "C45",
   "status": "proved",
   "theorems": [
    "C45_standard_lattices_qualify"
   ],
   "note": "Exact rational arithmetic; alpha > 0."
  },
  {
   "property": "C46",
   "status": "proved",
   "theorems": [
    "C46_ULV_LU_factorise_and_solve"
   ],
   "note": "Exact arithmetic; LAPACK by contract. A pair must be stored in child order (hss_ok); HSS_logdet is not claimed."
  },
  {
   "property": "C47",
   "status": "proved",
   "theorems": [
    "C47_ULV_Cholesky_factorise_and_solve"
   ],
   "note": "As C46; diagonal blocks symmetric."
  },
  {
   "property": "C48",
   "status": "proved",
   "theorems": [
    "C48_ULV_Cholesky_flag_means_positive_definite",
    "C48_ULV_succeeds_on_positive_definite"
   ],
   "note": "Exact real arithmetic; LAPACK reports failure only for singular (getrf) or not positive definite (potrf) matrices."
  },
  {
   "property": "C49",
   "status": "proved",
   "theorems": [
    "C49_ULV_half_solves_compose"
   ],
   "note": ""
  },
  {
   "property": "C50",
   "status": "proved",
   "theorems": [
    "C50_refused_calls",
    "C50_solve_after_failed_factorisation_refuted"
   ],
   "note": "The refused calls are proved; the property as a user would want it is refuted for a solve after a failed factorisation."
  },
  {
   "property": "C51",
   "status": "proved",
   "theorems": [
    "C51_build_factorise_solve"
   ],
   "note": "hss_ok of the built representation is a hypothesis (pairs are exactly siblings)."
  },
  {
   "property": "C52",
   "status": "proved",
   "theorems": [
    "C52_exact_neighbours"
   ],
   "note": ""
  },
  {
   "property": "C53",
   "status": "proved",
   "theorems": [
    "C53_fsai_precond"
   ],
   "note": ""
  },
  {
   "property": "C54",
   "status": "proved",
   "theorems": [
    "C54_fsai_full_is_inverse"
   ],
   "note": ""
  },
  {
   "property": "C55",
   "status": "proved",
   "theorems": [
    "C55_afn_spd_operator"
   ],
   "note": ""
  },
  {
   "property": "C56",
   "status": "proved",
   "theorems": [
    "C56_afn_full_is_inverse"
   ],
   "note": ""
  },
  {
   "property": "C57",
   "status": "proved",
   "theorems": [
    "C57_coincident_points_refuted",
    "C57_fps_farthest",
    "C57_fps_permutation",
    "C57_fps_thread_independent",
    "C57_more_threads_than_points_refuted"
   ],
   "note": ""
  },
  {
   "property": "C58",
   "status": "proved",
   "theorems": [
    "C58_matvec_agrees_with_matmul",
    "C58_matvec_needs_jit",
    "C58_periodic_matvec_applies_the_operator",
    "C58_periodic_matvec_error",
    "C58_periodic_matvec_is_the_periodic_kernel"
   ],
   "note": ""
  },
  {
   "property": "C59",
   "status": "proved",
   "theorems": [
    "C59_nystrom_spd_operator"
   ],
   "note": ""
  },
  {
   "property": "C60",
   "status": "proved",
   "theorems": [
    "C60_nystrom_inverse",
    "C60_rank_zero_refuted"
   ],
   "note": ""
  },
  {
   "property": "C61",
   "status": "proved",
   "theorems": [
    "C61_block_jacobi_inverts_the_leaf_blocks",
    "C61_coincident_points_refuted"
   ],
   "note": "getri is modelled as the solution of P A X = P with the packed LU factors; pivots live in a function, only the bounds of their array are modelled. Coincident points without shift: _refuted theorem."
  },
  {
   "property": "C62",
   "status": "proved",
   "theorems": [
    "C62_block_jacobi_is_symmetric_positive_definite"
   ],
   "note": "Reals; LU as in lapack_ok and lapack_exact (a reported singularity is one)."
  },
  {
   "property": "C63",
   "status": "proved",
   "theorems": [
    "C63_no_preference",
    "C63_samples_distinct",
    "C63_sampling_returns",
    "C63_too_many_samples_refuted"
   ],
   "note": "rand() is an arbitrary (non-negative) sequence; termination assumes that every remainder keeps occurring. More samples than indices: _refuted theorem."
  },
  {
   "property": "C64",
   "status": "proved",
   "theorems": [
    "C64_generation_returns",
    "C64_random_product"
   ],
   "note": "The flags share the index array in C; they are modelled as separate bytes. Any commutative ring."
  },
  {
   "property": "C65",
   "status": "proved",
   "theorems": [
    "C65_extra_coordinates_refuted",
    "C65_lrd_build_returns",
    "C65_lrd_solves_a_sampled_approximation"
   ],
   "note": "krnl_dim = 1, exact real arithmetic; potrf/trsm/syevd by their contracts (lapack_ok, lapack_exact, syevd_ok). C65_extra_coordinates_refuted: xpt_dim > pt_dim reads out of bounds."
  },
  {
   "property": "C66",
   "status": "partial",
   "theorems": [
    "C66_skeleton_is_the_sample_partial",
    "C66_unsorted_samples_refuted"
   ],
   "note": "As stated it is false: C66_unsorted_samples_refuted shows the counterexample; C66_skeleton_is_the_sample_partial proves it when the samples come in increasing order."
  },
  {
   "property": "C67",
   "status": "proved",
   "theorems": [
    "C67_more_blocks_than_nonzeros_refuted",
    "C67_no_nonzeros_refuted",
    "C67_numa_copy",
    "C67_product"
   ],
   "note": ""
  },
  {
   "property": "C68",
   "status": "proved",
   "theorems": [
    "C68_no_nonzeros_refuted",
    "C68_product_from_coordinates"
   ],
   "note": ""
  },
  {
   "property": "C69",
   "status": "proved",
   "theorems": [
    "C69_other_dimensions",
    "C69_surface_proxy_points",
    "C69_two_extra_coordinates_refuted"
   ],
   "note": ""
  }
 ]
}