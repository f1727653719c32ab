# Formal model of H2Pack in Rocq (Coq 8.16.1)

## 1. Approach

* The C code is modelled function by function as executable Gallina
  (`rocq/theories/Model_*.v`; every definition cites the file and lines it
  models).  Arrays are lists indexed by `Z` with *checked* accesses: an access
  outside the allocated length, or a read of a cell that was never written,
  makes the modelled function return `None`.  So `exists r, f x = Some r /\ ...`
  means "no memory error, terminates, and ...".  C loops are the combinator
  `zfor` (`Base.v`); unbounded loops and recursions carry fuel, and theorems
  either show that some fuel suffices or quantify over any fuel.
* Specifications are in `Spec_*.v` (independent of the model's helpers where
  possible: sums over index ranges, permutations, coverage counts, matrices as
  functions of two indices).  Proofs are in `Proof_*.v`.  The theorems that count
  are in `Props_*.v`, each followed by `Print Assumptions` and by `Example`s that
  instantiate the hypotheses with a concrete, non-trivial case.
* Arithmetic.  Index computations are in `Z`.  Floating point comes in three
  abstractions, chosen per theorem:
  `num` (`Num.v`): an arbitrary ordered type with operations and *no laws*, so
  theorems over it also hold for IEEE arithmetic (partitioning, pairs, the
  control flow of the ID); `cring` (`CRing.v`): an arbitrary commutative ring
  (exact arithmetic, matvec/matmul/JIT algebra); Coq's reals (`FNum.v`, error
  bounds of the QR/ID and of the product).
* Concurrency.  The task queue is a small-step transition system, one step per
  atomic operation of the C code, any number of threads.  OpenMP worksharing
  loops: an arbitrary assignment of iterations to threads and an arbitrary
  interleaving of the threads' iterations (`omp_for`, `inter` in `Conc.v`), an
  iteration being one step.  That an iteration may be taken as one step is what
  C31 is about: there each access to shared data is a step of its own.
* Where the English property is false of the code, the theorem is stated with the
  extra hypothesis it needs, and a separate theorem `Cnn_..._refuted` proves that
  it fails without.

## 2. Per property

| id | modelled | how it is proved |
|----|----------|------------------|
| C01-C05 | `DAG_task_queue.c` as a transition system, one step per atomic op | inductive invariant (in-degree accounting, slot ownership); progress by a topological-rank argument |
| C06 | step 7 of `H2P_partition_points` (upward DAG) | direct, from the tree invariant; counterexample for one-node trees |
| C07 | `calc_block_spos_len` | arithmetic |
| C08 | `H2P_partition_workload` | loop invariant; counterexample for zero-cost tails |
| C09 | `H2P_int_vec_*` | refinement to sequences over any history of calls |
| C10, C11 | dense matrix helpers on flat buffers with leading dimension | loop invariants; counterexample for unordered in-place selection |
| C12 | COO->CSR, quicksort, CSR get/set | loop invariants, sortedness + permutation |
| C13-C16 | bisection partition + tree_to_array | structural induction on the recursion; termination under three sufficient conditions |
| C17, C18, C33 | reduced pair enumeration (H2, HSS, periodic) | induction on the pair recursion, counting |
| C19, C20, C22, C30, C32 | the matvec sweeps with stored blocks, every schedule | state invariants, algebra on finite sums, tree induction |
| C21 | H2P_build and H2P_matvec with BD_JIT == 1 (kernel evaluation and bi-matvec, SIMD padding, transpositions) | both products equal the same sum |
| C23 | permutation index set-up and gathers | loop invariants |
| C24, C25 | `H2Pack_ID_compress.c` entirely | loop invariants (no laws) for the index part; real algebra for the error |
| C26, C27 | B/D metadata, evaluation, block look-up | prefix sums; any schedule |
| C28 | `H2Pack_file_IO.c` and the two conversion scripts as token streams | printer/scripts/parser round trip for every built H2 handle (partial: no HSS mode, no BD_JIT on reading, step 13 refuted); products and look-ups on the read handle |
| C29, C30 | `H2Pack_matmul.c`: batching, both layouts, buffer reuse | loop invariants; columnwise reduction to matvec |
| C31 | the sweeps of the matvec and the matmul as programs whose steps are single accesses to shared memory (`Race.v`, `Model_MvFine.v`, `Model_MmFine.v`) | footprint of each work item; footprints of different threads do not conflict (tree invariant, disjoint row ranges); non-conflicting threads are race free and equal the sequential order |
| C34 | build + matvec | composition of C26 and C19 |
| C35-C37 | `H2P_build_H2_UJ_proxy` for every queue schedule | invariant over the run, induction on the tree |
| C38 | partition + bases + blocks + product | composition with an explicit error bound |
| C39 | examples/PCG/pcg.c, callbacks as functions on vectors | refinement of the loops to a step on vectors (any arithmetic), invariant: updated residual = true residual |
| C40 | the same, exact reals | conjugacy and orthogonality invariants; n + 1 orthogonal vectors cannot exist |
| C41 | `matmul_periodic` (Model_Periodic.v): all four phases of H2P_matmul_periodic on shared buffers with per-thread scratch, events in any OpenMP order; blocks evaluated with shifted coordinates. | Reuse of the sweeps of C29 on the handle stripped of its pairs; cell-wise loop invariants for the intermediate and dense phases; sum over the index rows equals the sum over listed pairs; `after_per_calls` induction for histories. |
| C42 | `build_periodic` (Model_PerBuild.v): pair unpacking, B/D metadata with the Ewald flag, root block by repeated shifting, permutations. | Metadata specification of C26 redone for ordered pairs; `per_all` establishes every field of `per_rep_ok`/`per_ok`. |
| C43 | As C42, with the coverage of C33. | Sum over listed pairs regrouped by lattice, each ordered pair of points covered once per lattice (`Hper_dev`), the deviations vanish under interpolation. |
| C44 | As C42 over the reals. | Same regrouping; triangle inequality over at most one pair per lattice. |
| C45 | `run_RPY_Ewald` (Model_Lattice.v). | Tables checked against a base-3 formula (finite, complete); separation test and thresholds by rational arithmetic for all boxes. |
| C46, C47 | Model_ULV: both factorisations and solves of H2Pack_HSS_ULV.c on checked arrays, one node atomic, any order of the nodes of a level; LAPACK/TRSM by contract (Spec_Lapack, instantiated over R in Proof_Lapack) | per-node block elimination (Proof_ULVMath), invariant over the set of processed nodes: stored factors reproduce the node's transformed blocks (Proof_ULVAsm/Fac/Node/Fact); the sweeps are related to a tree of local systems whose solution solves the global one (Proof_ULVVec/Solve/Main) |
| C48 | same, over R, with LAPACK failing only on singular / indefinite matrices (lapack_exact) | a failing pivot gives a vector, pushed down the tree, on which the quadratic form is not positive; conversely the form is a sum of squares (Proof_ULVEn/Bil/Syn/SPD) |
| C49 | same | both runs computed from the same sweep lemmas |
| C50 | same | the row indices of the root are set last, and only if the flag is still set (Proof_ULVFail) |
| C51 | Model_Build + Model_ULV | block lookup of the build meets the interface (Proof_ULVUse), C46/C47, exact interpolation |
| C52 | Model_FSAI: FSAI_exact_KNN, calc_pdist2, Qpart_key_val | loop invariant of the quickselect partition (prefix <= pivot <= suffix, permutation), then rows independent of order (Proof_FSAIKnn) |
| C53 | Model_FSAI: FSAI_precond_build, FSAI_precond_apply | row equations from potrf/potrs contracts; leading blocks of a positive definite matrix factor (Proof_FSAIReal); COO2CSR keeps the matrix (Proof_FSAITop); SpMV = matrix product |
| C54 | same | G is lower triangular with full rows, so G S G^T = I and G^T G S = I |
| C55 | Model_AFN: AFN_precond_build, AFN_precond_apply | block LDL^T of the permuted matrix; Schur complement positive definite; M = permuted congruence (Proof_AFNMath, Proof_AFNTop) |
| C56 | same | C54 for the Schur complement, block elimination |
| C57 | Model_AFN: FPS, fps_perm | invariant of the passes; reduction over blocks = first best of the whole range for every thread count (Proof_FPS); counterexamples for coincident points and idle threads |
| C58 | Model_PerMv: H2P_matvec_periodic with the AOT and krnl_mv forms of both sweeps, the root block and the transpositions; krnl_mv by its documented contract | per-pair update of the vectors in the (possibly transposed) layout, invariant over the nodes, root block, per_sum of C41; transfer to periodic handles through the stripped handle (Proof_PerMvMid/Node/Den/Top/Use) |
| C59, C60 | Model_Nys: Nys_precond_build_ on checked arrays over R, statement by statement, plugged into AFN_precond_build (Model_AFN); ?syevd enters by its documented contract (syevd_ok: orthogonal eigenvectors, ascending eigenvalues), potrf/trsm by lapack_ok | M = [K11 K12]^T invL^T is built exactly, its Gram matrix's eigenpairs give U; truncation error bounded by quadratic forms (Proof_NysMath/Build/Top); the syevd contract is shown satisfiable for every size by a proof of the spectral theorem (Proof_Spectral) |
| C61, C62 | Model_BJ: H2P_build_block_jacobi_precond and block_jacobi_precond_apply statement by statement on checked memory, on top of the representation that Model_Build constructs; getrf/trsm by lapack_ok, getri as the solve with the packed factors | leaves tile the points (Proof_BJLeaf), every leaf block is evaluated, shifted, factored and inverted in its own region whatever the order (Proof_BJ, Proof_BJTop), the permutations carry it to the user's order; over R, principal blocks of a positive definite matrix are positive definite (Proof_BJReal) |
| C63, C64 | `Model_Rand.v`: `H2P_rand_sample`, `H2P_gen_rand_sparse_mat_trans`, `H2P_calc_sparse_mm_trans`; rand() is an arbitrary sequence of non-negative values, retries are bounded by a parameter that the theorems quantify over. | The samples are the first k different remainders (an inductive specification that determines them); termination by fairness and pigeonhole; no preference by uniqueness of that list; the product by exchanging sums. |
| C65, C66 | `Model_LRD.v`: `H2P_build_LRD_precond` and `LRD_precond_apply` (examples/SPDHSS-H2), krnl_dim = 1; potrf, trsm and syevd are parameters | `Spec_LRD.v` says what the truncated inverse and the sampled approximation are. `Proof_LRDMath.v` proves the Woodbury identity with the Cholesky factor, `Proof_LRDSel.v` what selecting columns in place with an unsorted list gives (`chain`), `Proof_LRDBuild.v` the construction (the largest eigenvalue is positive, the factored matrix is positive definite), `Proof_LRDTop.v` the sampled points and the application, `Proof_LRDUse.v` the user's order. |
| C67, C68 | `Model_CSRP.v`: CSRPlus.c of the SPDHSS-H2 example (partition, NUMA copy, SpMV; blocks in any order) | `Proof_CSRPPart.v` gives the first and last row of each block (binary search, empty rows), `Proof_CSRPFact.v` the arithmetic: what a block writes and adds to a row is its part of the row, an uncut row has one block, blocks sharing a row write the same value, the parts telescope. `Proof_CSRP.v` the loops, `Proof_CSRPInit.v` the construction from coordinates (the code of C12). |
| C69 | `Model_PPSurf`: `H2P_generate_proxy_point_surface` over the reals, with bounds and initialisation checks (a NULL pointer is a cell that is not initialised) | `Proof_PPSurf`: the matrix written by the loops is the list of the points of all grid positions in order (loop invariants); every point of the list is on the unit box and every grid point of every side is in it; `ceil (sqrt (n / 6))` is the smallest sufficient m; scaling keeps both |


Rounding errors of floating point, the quality of the proxy points (randomised
heuristics) and timing are not expressible in this model.

## 3. Trusted base

* Coq 8.16.1's kernel (and `vm_compute` for some closed examples; `coqchk`
  re-checks them without the VM).
* The axioms that `Print Assumptions` lists, all from Coq's standard library.
  Theorems not listed below are *closed under the global context*:

  - `FunctionalExtensionality.functional_extensionality_dep`: `C24_independent_of_schedule`, `C37_result_independent_of_schedule`
  - `ClassicalDedekindReals.sig_forall_dec`, `FunctionalExtensionality.functional_extensionality_dep`: `C25_best`, `C38_product_error`, `C44_periodic_product_error`, `C48_ULV_Cholesky_flag_means_positive_definite`, `C48_ULV_succeeds_on_positive_definite`, `C58_periodic_matvec_error`, `C62_block_jacobi_is_symmetric_positive_definite`
  - `ClassicalDedekindReals.sig_forall_dec`, `ClassicalDedekindReals.sig_not_dec`, `FunctionalExtensionality.functional_extensionality_dep`: `C25_core`, `C25_dependent_group_refuted`, `C25_residual`, `C25_zero_matrix_refuted`, `C36_every_basis_meets_the_tolerance`, `C36_far_field_error`, `C38_points_to_product`, `C39_pcg_reports_true_residual`, `C39_res_vec_is_not_relative_refuted`, `C39_zero_right_hand_side_refuted`, `C40_pcg_converges_in_n_steps`, `C40_pcg_smallest_energy_error`, `C53_fsai_precond`, `C54_fsai_full_is_inverse`, `C55_afn_spd_operator`, `C56_afn_full_is_inverse`, `C59_nystrom_spd_operator`, `C60_nystrom_inverse`, `C60_rank_zero_refuted`, `C65_extra_coordinates_refuted`, `C65_lrd_build_returns`, `C65_lrd_solves_a_sampled_approximation`, `C69_other_dimensions`, `C69_surface_proxy_points`, `C69_two_extra_coordinates_refuted`

* The translation from C to Gallina, done by hand (section 4), and these readings
  of things outside /repo: BLAS `gemv`, `gemm`, `?omatcopy`, `dot`, `nrm2`,
  `trsm` do what their documentation says; `malloc` succeeds; OpenMP `for`
  executes every iteration exactly once on some thread of the team, with a
  barrier at the end; `__atomic` operations are sequentially consistent.

## 4. What is modelled, what is not

Modelled (file: functions):

* `DAG_task_queue.c`: init, get_task, finish_task, reset (not: destroy, the
  busy-wait's timing).
* `utils.c`: calc_block_spos_len, copy_matrix_block, gather_vector_elements,
  gather_matrix_rows/cols.
* `H2Pack_utils.c`: qsort_key_value, int_COO_to_CSR, get/set_int_CSR_elem,
  partition_workload, transpose_dmat, get_Bij_block, get_Dij_block,
  eval_kernel_matrix, check_box_admissible, shift_coord.
* `H2Pack_aux_structs.c`: int_vec_*, dense_mat_* (resize, copy, permute, select,
  normalise, blkdiag, horzcat, vertcat), thread buffers as fields.
* `H2Pack_partition.c`: bisection, tree_to_array, calc_reduced_adm_pairs (plain
  and HSS), partition_points; periodic pair enumeration.
* `H2Pack_ID_compress.c`: all.
* `H2Pack_build.c`: H2_UJ_proxy, generate_B/D_metadata, build_B/D_AOT, H2P_build.
* `H2Pack_matvec.c`: all of the non-periodic part, both BD_JIT modes.
* `H2Pack_matmul.c`: all.


Simplifications that apply throughout: C `int` and `size_t` are unbounded `Z`
(no overflow is modelled; offsets such as `i_vec * ldx` in `H2P_matmul` are
`int` in C); timers, statistics (`mat_size`, flop counters) and messages are left
out; failed `ASSERT_PRINTF`s are `None`; aliasing of buffers is modelled only
where the code aliases (JIT diagonal blocks).

Not modelled: `H2P_build_HSS_UJ_hybrid`, HSS_logdet of `H2Pack_HSS_ULV.c`, `H2Pack_SPDHSS_H2.c`,
the rest of `H2Pack_gen_proxy_point.c` (the selection of proxy points by ID), `H2Pack_build_with_sample_point.c`, the HSS mode of `H2Pack_file_IO.c`; of `AFN_precond.c` the rank estimate and the approximate neighbour search that uses an H2 matrix,
`H2Pack_kernels.h`, the Python bindings, `H2P_init`/`H2P_destroy`/statistics.

## 5. Findings (proved as `_refuted` theorems, or preconditions of the theorems)

* C06: for a one-node tree the dependency graph of the upward task queue makes its initialisation write at index -1.
* C07: `calc_block_spos_len` accepts block index `nblk` (off by one in its check).
* C08: `H2P_partition_workload` can leave trailing items of cost 0 out of every block.
* C09: an int_vec initialised with capacity 0 stays at capacity 0 on growth by doubling.
* C11: in-place row/column selection is only right for increasing index lists.
* C12: `H2P_int_COO_to_CSR` with no entries reads outside its (empty) arrays.
* C16: the bisection does not terminate on coincident points unless a box-size limit is given.
* C18: the HSS path asserts a minimal admissible level of 1, which two families of inputs violate.
* C19/C30: a node of rank 0 on a compressed level makes the backward sweep read uninitialised cells.
* C20/C26: a team smaller than the handle's `n_thread` (OpenMP may deliver one) leads to memory errors / unwritten blocks.
* C21: without a bi-matvec, a block wider than 128 KB per point makes the JIT loop endless; an empty skeleton divides by zero.
* C25: a zero matrix with a relative tolerance, or a dependent group of columns with kdim > 1, divides by zero.
* C26: with no admissible pair at all the B metadata is left unset.
* C28: the last step of `H2P_read_from_file` reads outside the enclosing box for every stored H2 handle; a coordinate 0 (or any whose top hexadecimal digit is 0) is written without leading zeros and then rejected by the conversion script; the root's parent is left unset.
* C39: `pcg` with b = 0 computes relres = 0/0; `res_vec` holds absolute residual norms, not the documented relative ones.
* C41-C45: in the periodic product y1[root] is overwritten by the root block, so an admissible (root, image of root) pair would be lost (a precondition; C45 shows the built-in lattices never produce one for alpha > 0); `shift[8]` limits xpt_dim to 8; the root skeleton is shifted in place and back, so in floating point it drifts with every lattice; `H2P_run_RPY_Ewald` leaves n_lattice = 0 for dimensions other than 2 and 3; H2Pack_partition_periodic.c:284 asserts per_adm_shifts twice instead of per_inadm_shifts.
* C46-C51: `H2P_HSS_ULV_*_solve` do not check is_HSS_SPD: after a failed factorisation every solve dereferences NULL (C50, proved). The factorisations use `tmpB->ld` of a looked-up block as if the pair were stored in child order (a transposed lookup has a negative ld); rank-0 nodes call LAPACK with lda = 0; the flag nonsingular / is_SPD is read and written by several threads without synchronisation; factorising twice leaks the first factors.
* C52-C57: coincident points overrun the permutation array, more threads than points read past the distance array (C57, proved). AFN_precond_build with an estimated rank of 0 reads S[n1-1] = S[-1]; max_k > npt gives n1 > npt and overruns perm; AFNi_Nys_rank_est mixes ss_npt and ss_npt_ as leading dimension and sizes its eigenvalue buffer by max_k; sample_idx and the first afn_K12 leak; in FSAI_approx_KNN_with_H2P the expansion loop can exceed the neighbour buffer; the NYSTROM_SVD_DIRECT branch uses an undeclared U.
* C65, C66: `H2P_build_LRD_precond` selects the sampled columns in place, but the random samples are not sorted, so the skeleton points are not the samples and can coincide (C66, proved); the coordinates are copied with pt_dim rows but evaluated with xpt_dim (C65, proved); with krnl_dim > 1 and several threads `H2P_eval_kernel_matrix_OMP` writes block row spos*ldk instead of spos*krnl_dim*ldk; a kernel that is zero on the samples divides 0 by 0.

## 6. Seeded bugs

`seeded/LOG.jsonl` has one line per edited definition: the edit, the claim it
breaks, which theorems stopped proving, and what was tightened.  The edits are
run in a scratch copy, rebuilding everything that depends on the edited file.
