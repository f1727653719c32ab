{"id": "C01", "title": "Task queue never hands out a task before its prerequisites are done", "statement": "If a DAG_task_queue was initialised from a well-formed dependency graph, and threads call DAG_task_queue_finish_task only for tasks they were handed, then whenever DAG_task_queue_get_task returns a task id, every task the graph says it relies on has already been passed to a DAG_task_queue_finish_task call whose decrement for that dependency has been performed.", "quantifier": "every well-formed dependency graph, every number of threads, every interleaving of the atomic steps of get_task/finish_task", "why_tests_cant": "A test only runs a few schedules on one machine; an ordering violation needs one particular interleaving.", "anchors": ["src/DAG_task_queue.c: DAG_task_queue_get_task, DAG_task_queue_finish_task, DAG_task_queue_init"]}
{"id": "C02", "title": "Task queue hands out every task at most once, and all of them before reporting completion", "statement": "No task id is returned twice by DAG_task_queue_get_task between two resets, skipped tasks (self-dependency) are never returned, every returned id is a real task, and a call returns -1 only if all non-skipped tasks have already been claimed by other calls.", "quantifier": "every well-formed dependency graph, every number of threads and every interleaving", "why_tests_cant": "Duplicated or lost tasks arise only under particular schedules of concurrent producers and consumers.", "anchors": ["src/DAG_task_queue.c: DAG_task_queue_get_task, DAG_task_queue_finish_task"]}
{"id": "C03", "title": "Task queue never touches memory outside its arrays", "statement": "For a well-formed dependency graph, init, reset, get_task and finish_task only access indices inside the arrays allocated by init, in every reachable state; and a slot of the queue is filled at most once between resets.", "quantifier": "every well-formed graph, number of threads and interleaving", "why_tests_cant": "Out of bounds accesses depend on queue occupancy, which depends on the schedule.", "anchors": ["src/DAG_task_queue.c"]}
{"id": "C04", "title": "Task queue cannot deadlock on an acyclic graph", "statement": "If the dependency graph without self loops is acyclic and no task relies on a skipped task, then in every reachable state in which some task has not been handed out and finished, either some thread outside a spin wait can still take a step or a spinning thread's task is available; so threads that finish what they get eventually drain the queue.", "quantifier": "every acyclic graph, thread count, reachable state", "why_tests_cant": "Deadlock freedom is a statement over all reachable states; a passing test run exhibits one path.", "anchors": ["src/DAG_task_queue.c: DAG_task_queue_get_task (spin loop), DAG_task_queue_finish_task"]}
{"id": "C05", "title": "Resetting a task queue is equivalent to initialising it again", "statement": "After any use whatsoever of a queue, DAG_task_queue_reset puts it in exactly the state DAG_task_queue_init produced, so repeated matvecs behave the same.", "quantifier": "every queue state and every history of calls", "why_tests_cant": "Depends on arbitrary prior histories.", "anchors": ["src/DAG_task_queue.c: DAG_task_queue_reset"]}
{"id": "C06", "title": "Upward-sweep dependency graph is accepted by the queue", "statement": "H2P_partition_points hands the queue a graph that satisfies the queue's preconditions (every destination is a node index) and that orders each node after all of its children at the compressed levels. (False when the tree consists of one node: the root's missing parent -1 is used as an index.)", "quantifier": "every partition tree", "why_tests_cant": "The failing trees are a boundary case and the write at index -1 usually goes unnoticed in a test.", "anchors": ["src/H2Pack_partition.c: H2P_partition_points step 7", "src/DAG_task_queue.c: DAG_task_queue_init"]}
{"id": "C07", "title": "Block splitting covers the range exactly once", "statement": "For 0 <= iblk < nblk, the half-open ranges [blk_spos, blk_spos + blk_len) returned by calc_block_spos_len are pairwise disjoint, ordered, cover [0,len) and differ in length by at most one; out of range iblk is rejected.", "quantifier": "every len >= 0, nblk > 0, iblk", "why_tests_cant": "Unbounded arithmetic statement over all sizes; tests sample a few.", "anchors": ["src/utils.c: calc_block_spos_len"]}
{"id": "C08", "title": "Workload partitioning keeps every work item with positive cost exactly once", "statement": "H2P_partition_workload returns block boundaries starting at 0, non-decreasing, fitting in the allocated n_block+1 entries, such that the blocks cover a prefix of the work items in order and every item after the prefix has cost zero; each closed block has bounded overshoot.", "quantifier": "every list of non-negative costs and every n_block >= 1", "why_tests_cant": "Off-by-one behaviour depends on particular cost profiles.", "anchors": ["src/H2Pack_utils.c: H2P_partition_workload", "src/H2Pack_build.c: H2P_generate_B_metadata, H2P_generate_D_metadata"]}
{"id": "C09", "title": "Integer vectors behave as unbounded sequences", "statement": "Any sequence of push_back / set_capacity / concatenate / gather / reset operations on an int vector with positive capacity yields the contents of the corresponding sequence operations and never writes out of its capacity.", "quantifier": "all operation histories and vector contents", "why_tests_cant": "Growth happens at capacity boundaries reached only by particular histories.", "anchors": ["src/H2Pack_aux_structs.h: H2P_int_vec_push_back, H2P_int_vec_set_capacity", "src/H2Pack_aux_structs.c: H2P_int_vec_init, H2P_int_vec_concatenate, H2P_int_vec_gather"]}
{"id": "C10", "title": "Dense matrix reshaping preserves entries", "statement": "copy, permute_rows, blkdiag, vertcat, horzcat and transpose of dense matrices produce exactly the entries of the corresponding mathematical operation at every position, for every shape and leading dimension, and never access an index outside the buffers.", "quantifier": "every shape, leading dimension, contents, index list", "why_tests_cant": "Index arithmetic must be right for all shapes, including empty ones.", "anchors": ["src/H2Pack_aux_structs.c: H2P_dense_mat_permute_rows, H2P_dense_mat_blkdiag, H2P_dense_mat_vertcat, H2P_dense_mat_horzcat", "src/utils.c: copy_matrix", "src/H2Pack_utils.c: H2P_transpose_dmat"]}
{"id": "C11", "title": "In-place row/column selection", "statement": "H2P_dense_mat_select_rows / select_columns leave the selected rows/columns in place in the requested order when the index list is strictly increasing (their documented use); for arbitrary lists the in-place copy can destroy data.", "quantifier": "every matrix, every strictly increasing in-range index list", "why_tests_cant": "Aliasing failures happen only for particular index lists.", "anchors": ["src/H2Pack_aux_structs.c: H2P_dense_mat_select_rows, H2P_dense_mat_select_columns"]}
{"id": "C12", "title": "COO to CSR conversion keeps exactly the given entries", "statement": "H2P_int_COO_to_CSR yields a CSR matrix whose row i lists exactly the (column,value) pairs of the COO input with row i, with columns in non-decreasing order; when coordinates are distinct H2P_get_int_CSR_elem returns the stored value for stored coordinates and 0 otherwise, and H2P_set_int_CSR_elem updates exactly one stored entry.", "quantifier": "every COO list, shape, coordinate", "why_tests_cant": "Quantifies over all sparsity patterns, and a hand written quicksort's correctness over all inputs.", "anchors": ["src/H2Pack_utils.c: H2P_int_COO_to_CSR, H2P_qsort_int_key_val, H2P_get_int_CSR_elem, H2P_set_int_CSR_elem"]}
{"id": "C13", "title": "Partitioning is a permutation of the points", "statement": "After H2P_partition_points, the point order is a permutation of the input points: coord column i equals input point coord_idx[i], and coord_idx contains each index exactly once.", "quantifier": "every point set, dimension, leaf size", "why_tests_cant": "All point configurations, including duplicates and points on box borders.", "anchors": ["src/H2Pack_partition.c: H2P_bisection_partition_points, H2P_partition_points"]}
{"id": "C14", "title": "The partition tree is a proper cluster tree in post-order", "statement": "Children of a node cover its index range contiguously, disjointly and non-emptily, node numbers are a post-order (children before parents, root last), levels grow by one, leaves partition all points; level and height lists contain each node exactly once.", "quantifier": "every point set", "why_tests_cant": "Structural invariant over unbounded recursion.", "anchors": ["src/H2Pack_partition.c: H2P_bisection_partition_points, H2P_tree_to_array"]}
{"id": "C15", "title": "Every point lies in the box of each node that owns it", "statement": "For every tree node the recorded enclosing box contains all its points.", "quantifier": "every point set (exact arithmetic)", "why_tests_cant": "Holds for all points and depths.", "anchors": ["src/H2Pack_partition.c: H2P_bisection_partition_points"]}
{"id": "C16", "title": "Leaf size bound", "statement": "Every leaf either has at most max_leaf_points points or its box size is at most max_leaf_size; and a node with more points is subdivided, the recursion terminating when a size limit is given.", "quantifier": "every point set", "why_tests_cant": "Recursion depth is unbounded.", "anchors": ["src/H2Pack_partition.c: H2P_bisection_partition_points"]}
{"id": "C17", "title": "The block partition covers each matrix entry exactly once", "statement": "For every pair of points (p,q), exactly one of the following holds, exactly once: p and q lie in the same leaf; (p,q) or (q,p) is covered by one reduced admissible pair; or by one reduced inadmissible pair. For H2 and for HSS mode.", "quantifier": "every tree, box geometry, admissibility threshold, pair of points", "why_tests_cant": "Combinatorial statement over all trees and pairs.", "anchors": ["src/H2Pack_partition.c: H2P_calc_reduced_adm_pairs, H2P_HSS_calc_adm_inadm_pairs"]}
{"id": "C18", "title": "Admissible and inadmissible pairs are classified correctly", "statement": "Every reduced admissible pair's boxes pass the admissibility test and both nodes are at levels not below min_adm_level; inadmissible pairs consist of two leaves.", "quantifier": "every tree, geometry, threshold", "why_tests_cant": "All trees and boxes.", "anchors": ["src/H2Pack_partition.c: H2P_calc_reduced_adm_pairs", "src/H2Pack_utils.c: H2P_check_box_admissible"]}
{"id": "C19", "title": "Matvec computes the H2 operator", "statement": "H2P_matvec returns exactly (in exact arithmetic) P^T (sum over leaf blocks and pairs of the stored blocks, wrapped in the nested bases) P x: the upward, intermediate, downward and dense sweeps together apply each stored block once in each direction.", "quantifier": "every tree, basis sizes, block contents, input vector", "why_tests_cant": "Holds for all trees and vectors.", "anchors": ["src/H2Pack_matvec.c: H2P_matvec, H2P_matvec_fwd_transform, H2P_matvec_intmd_mult_AOT, H2P_matvec_bwd_transform, H2P_matvec_dense_mult_AOT"]}
{"id": "C20", "title": "Matvec result does not depend on the thread schedule", "statement": "Whatever number of threads and whatever assignment of block batches to threads, in exact arithmetic the per-thread accumulations summed at the end equal the sequential result.", "quantifier": "every thread count, every assignment of work blocks to threads", "why_tests_cant": "Schedules cannot be enumerated.", "anchors": ["src/H2Pack_matvec.c: H2P_matvec_intmd_mult_AOT, H2P_matvec_sum_y1_thread, H2P_matvec_dense_mult_AOT, H2P_matvec"]}
{"id": "C21", "title": "Just-in-time and ahead-of-time modes agree", "statement": "With BD_JIT=1 and BD_JIT=0 H2P_matvec returns the same result in exact arithmetic, both with a kernel bi-matvec (with padding to SIMD length) and with blocked kernel evaluation.", "quantifier": "every tree, block shape, kernel, input", "why_tests_cant": "Row blocking and padding bugs show only for some block shapes.", "anchors": ["src/H2Pack_matvec.c: H2P_matvec_intmd_mult_JIT, H2P_matvec_dense_mult_JIT, H2P_ext_krnl_bimv, H2P_krnl_eval_bimv"]}
{"id": "C22", "title": "Matvec equals the dense kernel product when compression is exact", "statement": "If every admissible block equals its compressed form U_i B_ij U_j^T (or the one sided form), then H2P_matvec(x) = K x for the kernel matrix in the user's point ordering.", "quantifier": "every kernel, point set, tree, vector", "why_tests_cant": "Quantifies over all kernels and vectors.", "anchors": ["src/H2Pack_matvec.c: H2P_matvec", "src/H2Pack_build.c: H2P_build"]}
{"id": "C23", "title": "Forward and backward permutations are inverse", "statement": "H2P_permute_vector_backward undoes H2P_permute_vector_forward (and the matrix versions, in both layouts) for every vector, so results come back in the user's ordering.", "quantifier": "every point permutation, kernel dimension, vector", "why_tests_cant": "All permutations.", "anchors": ["src/H2Pack_build.c: H2P_build step 5", "src/H2Pack_matvec.c: H2P_permute_vector_forward, H2P_permute_vector_backward", "src/H2Pack_matmul.c"]}
{"id": "C24", "title": "Interpolative decomposition returns a valid skeleton", "statement": "H2P_ID_compress returns a strictly increasing list of distinct row indices J within range and a matrix U of shape nrow x |J| (times krnl_dim) whose rows at J form the identity.", "quantifier": "every matrix shape, pivot sequence, tolerance", "why_tests_cant": "Pivot sequences are data dependent.", "anchors": ["src/H2Pack_ID_compress.c: H2P_ID_compress, H2P_ID_QR, H2P_partial_pivot_QR"]}
{"id": "C25", "title": "Interpolative decomposition error is exactly the dropped trailing block", "statement": "With A's pivoted QR factor [R11 R12; 0 R22], A - U A(J,:) consists only of the rows generated by R22; if R22 = 0 the decomposition is exact.", "quantifier": "every matrix, every rank", "why_tests_cant": "All matrices.", "anchors": ["src/H2Pack_ID_compress.c: H2P_ID_compress"]}
{"id": "C26", "title": "Storage of B and D blocks is disjoint and complete", "statement": "The offset tables produced when generating B/D metadata give each block a contiguous slot of nrow*ncol elements; slots are disjoint, ordered, start at zero and fill the allocated array; every batch of blocks assigned to threads covers all blocks.", "quantifier": "every list of pairs and basis sizes", "why_tests_cant": "All sizes.", "anchors": ["src/H2Pack_build.c: H2P_generate_B_metadata, H2P_generate_D_metadata, H2P_build_B_AOT, H2P_build_D_AOT"]}
{"id": "C27", "title": "Block retrieval returns the right block, transposed when asked in reverse", "statement": "H2P_get_Bij_block / get_Dij_block for (i,j) return the stored block and for (j,i) flag it as the transposed view; for non-stored pairs the lookup is absent.", "quantifier": "every stored pair", "why_tests_cant": "All pairs.", "anchors": ["src/H2Pack_utils.c: H2P_get_Bij_block, H2P_get_Dij_block"]}
{"id": "C28", "title": "Store then read reproduces the representation", "statement": "H2P_read_from_file applied to the files written by H2P_store_to_file restores the tree arrays, pairs, bases, skeleton indices, and blocks.", "quantifier": "every stored representation", "why_tests_cant": "All representations, including nodes without basis and without pairs.", "anchors": ["src/H2Pack_file_IO.c: H2P_store_to_file, H2P_read_from_file"]}
{"id": "C29", "title": "Matmul equals matvec column by column", "statement": "H2P_matmul in row or column major layout, for any number of vectors and any internal batch width, gives in column v the result of H2P_matvec on column v.", "quantifier": "every n_vec, batch width, layout, input", "why_tests_cant": "Batch boundaries.", "anchors": ["src/H2Pack_matmul.c: H2P_matmul"]}
{"id": "C30", "title": "Repeated matvecs are independent", "statement": "The result of H2P_matvec depends only on the representation and the input vector and not on earlier calls (work buffers y0, y1, per-thread partial sums are reinitialised).", "quantifier": "every history of calls", "why_tests_cant": "All histories.", "anchors": ["src/H2Pack_matvec.c: H2P_matvec_init_y0, H2P_matvec_init_y1, H2P_matvec"]}
{"id": "C31", "title": "Parallel sweeps are race free", "statement": "In the tree sweeps of matvec and matmul, work items processed concurrently write disjoint locations, and no item reads a location another concurrent item writes.", "quantifier": "every tree, every level, pair of concurrent items", "why_tests_cant": "Races need particular schedules.", "anchors": ["src/H2Pack_matvec.c", "src/H2Pack_matmul.c"]}
{"id": "C32", "title": "Matvec is linear and symmetric", "statement": "For a symmetric kernel in exact arithmetic matvec(a x + b y) = a matvec(x) + b matvec(y) and <u, matvec(v)> = <matvec(u), v>, which conjugate gradients relies on.", "quantifier": "all vectors, scalars", "why_tests_cant": "All vectors.", "anchors": ["src/H2Pack_matvec.c: H2P_matvec"]}
{"id": "C33", "title": "Periodic pair enumeration covers all lattice images", "statement": "H2P_calc_reduced_adm_pairs_per over all lattice shifts covers every (point, point, lattice image) triple exactly once except leaf self blocks at zero shift.", "quantifier": "every tree, lattice, threshold", "why_tests_cant": "Combinatorial.", "anchors": ["src/H2Pack_partition_periodic.c: H2P_calc_reduced_adm_pairs_per"]}
{"id": "C34", "title": "Points to product: exact interpolation gives the kernel product", "statement": "Partitioning the user's points, enumerating the pairs, building the representation and multiplying gives exactly the kernel matrix of the user's points times the user's vector, for every schedule of the building and multiplying threads, whenever each node's basis reproduces its rows from its skeleton rows on the columns of its far field.", "quantifier": "every point set, kernel (any block size), thread count, schedule, vector", "why_tests_cant": "All point sets, kernels and schedules; the composition of five phases.", "anchors": ["src/H2Pack_partition.c: H2P_partition_points", "src/H2Pack_build.c: H2P_build", "src/H2Pack_matvec.c: H2P_matvec"]}
{"id": "C35", "title": "Bases from proxy points for every schedule", "statement": "H2P_build with proxy points, for every tree, kernel, proxy point set, stopping rule, number of threads and order in which the threads take nodes from the dependency queue, returns for every node below the admissibility cut a nonempty skeleton made of the node's own points, their coordinates, and a fully defined basis with the identity at the skeleton rows; no step reads a child's data before it is written or outside a buffer. Exception made explicit: a node left without any skeleton point.", "quantifier": "every cluster tree, coordinates, kernel (any block size), proxy points, stopping rule, thread count, schedule, arithmetic with total division", "why_tests_cant": "All trees and all interleavings of the DAG queue.", "anchors": ["src/H2Pack_build.c: H2P_build_H2_UJ_proxy", "src/H2Pack_ID_compress.c: H2P_ID_compress", "src/DAG_task_queue.c: DAG_task_queue_get_task"]}
{"id": "C36", "title": "Every basis meets the tolerance on its proxy points", "statement": "In exact arithmetic every node's interpolation reproduces the kernel block of its points against the proxy points of its level up to the tolerance the user set, orthogonally to the skeleton; hence any field that sources on the proxy points can produce is interpolated with an error at most the tolerance times the norm of the source strengths; and no node loses all its points if the proxy points see every point.", "quantifier": "every tree, kernel, proxy points, tolerance, schedule, source field", "why_tests_cant": "Real analysis over all inputs.", "anchors": ["src/H2Pack_build.c: H2P_build_H2_UJ_proxy", "src/H2Pack_ID_compress.c: H2P_ID_compress"]}
{"id": "C37", "title": "Construction is deterministic under any schedule", "statement": "Skeletons, bases and skeleton coordinates are the same, entry by entry, whatever the number of threads, the contents of their buffers and the order in which the nodes are processed.", "quantifier": "every pair of thread counts, buffers and schedules; every arithmetic with total division", "why_tests_cant": "All pairs of interleavings.", "anchors": ["src/H2Pack_build.c: H2P_build_H2_UJ_proxy", "src/DAG_task_queue.c"]}
{"id": "C38", "title": "The product errs by at most what the tolerance allows", "statement": "Partition a point set, build its representation from proxy points and multiply a vector: every phase returns, for every schedule of its threads, and each component of the product differs from the dense kernel-matrix product by at most the tolerance, times the strength needed on the proxy points to reproduce far sources, times the amplification by the nested bases, times the 1-norm of the vector.", "quantifier": "every point set, symmetric kernel, proxy points seeing every point, tolerance, vector, team size and thread schedule", "why_tests_cant": "a test compares one accuracy for one kernel; the bound must hold for every geometry, kernel and tolerance", "anchors": ["src/H2Pack_build.c: H2P_build, H2P_build_H2_UJ_proxy", "src/H2Pack_matvec.c: H2P_matvec", "src/H2Pack_ID_compress.c: H2P_ID_compress", "src/H2Pack_partition.c: H2P_partition_points"]}
{"id": "C39", "title": "The conjugate gradient solver reports the truth about its result", "statement": "When the solver returns in exact arithmetic, flag 0 means exactly that the returned x satisfies ||b - A x|| <= tol ||b||, relres is ||b - A x|| / ||b||, at most max_iter iterations were made (exactly max_iter when failure is reported), an x that already was good enough is not touched, and res_vec[k] is the residual norm of the x a run limited to k + 1 iterations returns; in any arithmetic it touches only its arrays and stops.", "quantifier": "all sizes, matrices, preconditioners, right-hand sides, starting vectors, tolerances and iteration limits", "why_tests_cant": "The residual is updated recursively; that it stays the true residual is an induction over all iterations and all operators.", "anchors": ["examples/PCG/pcg.c: pcg", "examples/PCG/pcg.h"]}
{"id": "C40", "title": "The conjugate gradient solver converges in at most n iterations", "statement": "For a symmetric positive definite matrix and preconditioner (or none), a nonzero right-hand side and tol >= 0, in exact arithmetic the solver never divides by zero, stops after at most n iterations, succeeds whenever max_iter >= n (with tol = 0: with the exact solution), and its x has the smallest energy-norm error of all affine combinations of its iterates.", "quantifier": "all n, all symmetric positive definite A and M, all b, x0, tol, max_iter", "why_tests_cant": "Conjugacy of all search directions is an invariant over unboundedly many iterations and all matrices; tests only show convergence on samples in rounded arithmetic.", "anchors": ["examples/PCG/pcg.c: pcg"]}
{"id": "C41", "title": "The periodic multi-vector product applies one fixed operator", "statement": "On any well-formed handle of a periodic system H2P_matmul_periodic stores in every requested cell of the output the operator made of the leaves' own blocks, the shifted blocks of all listed pairs and the root block, applied to the corresponding input column; it makes no illegal access, touches no other cell, and the result does not depend on the thread schedules, the batch width, the layout, the leading dimensions or earlier products.", "quantifier": "all well-formed periodic handles, kernels, inputs, numbers of columns, layouts, batch widths, thread schedules and histories of earlier calls", "why_tests_cant": "The operator is assembled from overlapping contributions of all levels, pairs and images computed by interleaved threads in reused buffers; samples of inputs and schedules do not show absence of double counting or leftovers.", "anchors": ["src/H2Pack_matmul_periodic.c: H2P_matmul_periodic, H2P_matmul_periodic_intmd_mult, H2P_matmul_periodic_dense_mult", "src/H2Pack_utils.c: H2P_shift_coord"]}
{"id": "C42", "title": "Periodic build and product from the user's points", "statement": "For every partitioned periodic point set with bases and skeletons, H2P_build_periodic succeeds, and every later product on the handle applies the operator whose pair blocks are the kernel between points and the images shifted by exactly the pair's own lattice vector times the root box, and whose root block is the periodic kernel minus all lattice copies on the root skeleton.", "quantifier": "all point sets, kernels, lattices, bases, sorting orders, inputs, histories", "why_tests_cant": "Indices of pairs, shifts and metadata are computed in different passes and orders; that they match for every tree and lattice list is a relation between all of them.", "anchors": ["src/H2Pack_build_periodic.c: H2P_build_periodic, H2P_build_periodic_block", "src/H2Pack_partition_periodic.c: H2P_partition_points_periodic", "src/H2Pack_matmul_periodic.c: H2P_matmul_periodic"]}
{"id": "C43", "title": "Every periodic image is counted exactly once", "statement": "If the compressed blocks reproduce the kernel and the remaining images are reproduced from the root skeleton, the periodic product equals the periodic kernel matrix of the user's points, in the user's order, times the input: no image is left out or counted twice.", "quantifier": "all point sets, kernels, inputs for which compression is exact", "why_tests_cant": "A missed or doubled image for one pair of points out of all pairs, leaves and lattices is invisible to sampled comparisons at approximation accuracy.", "anchors": ["src/H2Pack_build_periodic.c: H2P_build_periodic", "src/H2Pack_partition_periodic.c: H2P_calc_reduced_adm_pairs_per", "src/H2Pack_matmul_periodic.c: H2P_matmul_periodic"]}
{"id": "C44", "title": "Accuracy of the periodic product", "statement": "In exact arithmetic, if every listed pair's compressed block is within e of the shifted kernel block and the root's compressed block within ef of the remaining images, every entry of the periodic product is within (n_lattice e + ef) times the 1-norm of the input column of the periodic kernel product.", "quantifier": "all point sets, kernels, bases, error levels, inputs", "why_tests_cant": "An error bound for all inputs cannot be tested input by input.", "anchors": ["src/H2Pack_matmul_periodic.c: H2P_matmul_periodic", "src/H2Pack_build_periodic.c: H2P_build_periodic"]}
{"id": "C45", "title": "The built-in lattices are the right ones", "statement": "H2P_run_RPY_Ewald lists, in two and three dimensions, every neighbour vector of {-1,0,1}^d exactly once; in exact arithmetic, whenever the root box is wider than 1e-10 and alpha > 0, exactly the middle lattice counts as unshifted, the root is never listed as well separated from an image of itself (whose contribution the product would lose), and moving skeleton points to an image and back is exact.", "quantifier": "all point sets and root boxes, all alpha > 0, dimensions 2 and 3", "why_tests_cant": "The requirement ties the table to the threshold and the separation test for every possible box; a wrong row shows only for particular geometries.", "anchors": ["src/H2Pack_typedef.c: per_lattices_2d, per_lattices_3d, H2P_run_RPY_Ewald", "src/H2Pack_partition_periodic.c: H2P_partition_points_periodic"]}
{"id": "C46", "title": "ULV LU factorisation and solve", "statement": "For every HSS matrix and shift H2P_HSS_ULV_LU_factorize runs without an illegal access, in whatever order the threads take the nodes of a level; if it reports a nonsingular matrix, H2P_HSS_ULV_LU_solve with op = 3 returns for every b, in the user's ordering, an x with (A_HSS + shift I) x = b exactly (exact arithmetic, correct LAPACK), writes nothing else, and leaves the work buffers usable for the next solve.", "quantifier": "all trees, ranks, bases, blocks, shifts, right-hand sides, thread schedules, contents of the work buffers; any commutative ring of numbers and any LAPACK meeting its documentation", "why_tests_cant": "A hierarchical elimination over all tree shapes; tests check residuals of a few matrices in rounded arithmetic and one schedule.", "anchors": ["src/H2Pack_HSS_ULV.c: H2P_HSS_ULV_LU_factorize, H2P_HSS_ULV_LU_solve"]}
{"id": "C47", "title": "ULV Cholesky factorisation and solve", "statement": "The same for H2P_HSS_ULV_Cholesky_factorize and H2P_HSS_ULV_Cholesky_solve when the diagonal blocks are symmetric.", "quantifier": "all trees, ranks, bases, blocks, shifts, right-hand sides, thread schedules, contents of the work buffers", "why_tests_cant": "As for C46.", "anchors": ["src/H2Pack_HSS_ULV.c: H2P_HSS_ULV_Cholesky_factorize, H2P_HSS_ULV_Cholesky_solve"]}
{"id": "C48", "title": "is_HSS_SPD after a ULV factorisation", "statement": "In exact real arithmetic: if A_HSS + shift I is positive definite both factorisations report success; if the Cholesky factorisation reports success then A_HSS + shift I is positive definite.", "quantifier": "all HSS matrices over the reals, shifts, thread schedules", "why_tests_cant": "Positive definiteness is a statement about all vectors, and the flag is the conjunction of local pivots of matrices that never exist globally.", "anchors": ["src/H2Pack_HSS_ULV.c: H2P_HSS_ULV_LU_factorize, H2P_HSS_ULV_Cholesky_factorize"]}
{"id": "C49", "title": "Half solves compose to the full solve", "statement": "After a successful factorisation, calling the solve with op = 1 and then with op = 2 on the vector it returned gives exactly the vector the solve with op = 3 returns (this is what a split preconditioner uses).", "quantifier": "all HSS matrices, right-hand sides, schedules, LU and Cholesky", "why_tests_cant": "An equality of two program runs for all inputs.", "anchors": ["src/H2Pack_HSS_ULV.c: H2P_HSS_ULV_LU_solve, H2P_HSS_ULV_Cholesky_solve"]}
{"id": "C50", "title": "Invalid solves are refused", "statement": "A solve on a matrix that is not HSS, without a factorisation or with op outside 1..3 returns and leaves x alone. (A solve after a factorisation that reported failure is not refused: refuted, it always dereferences NULL.)", "quantifier": "all inputs, all operations, all schedules", "why_tests_cant": "Which node failed, and what was left unset, depends on matrix and schedule.", "anchors": ["src/H2Pack_HSS_ULV.c: H2P_HSS_ULV_LU_solve, H2P_HSS_ULV_Cholesky_solve"]}
{"id": "C51", "title": "From points to the solution of the kernel system", "statement": "Partitioning a point set in HSS mode, building (blocks stored or recomputed on demand), factorising and solving gives, when the bases interpolate exactly and the factorisation reports success, the solution of (kernel matrix of the user's points + shift I) x = b in the user's ordering.", "quantifier": "all point sets, symmetric kernels, bases, shifts, right-hand sides, schedules", "why_tests_cant": "It relates permutations, tree, block tables and two sweeps for all inputs.", "anchors": ["src/H2Pack_HSS_ULV.c: H2P_HSS_ULV_LU_factorize, H2P_HSS_ULV_LU_solve", "src/H2Pack_build.c: H2P_build"]}
{"id": "C52", "title": "Exact neighbour search", "statement": "The exact nearest-neighbour search of the FSAI construction succeeds on every point set, whatever the order in which the threads process the points, and gives point i its nearest earlier points (all i of them when they fit in the limit, otherwise limit-1 points none of which is farther than an earlier point left out), with i itself last.", "quantifier": "all point sets, dimensions, neighbour limits, loop orders, contents of the output arrays", "why_tests_cant": "A selection property of all point sets with ties, checked by tests only on random points without ties.", "anchors": ["src/AFN_precond.c: FSAI_exact_KNN"]}
{"id": "C53", "title": "FSAI preconditioner", "statement": "If S = K(X,X) + mu I - P P^T is symmetric positive definite the FSAI construction succeeds in any order of its parallel loops; the preconditioner it builds maps every x to G^T G x for a G supported on the neighbour lists with (S G^T)(r,i) = 0 for the other neighbours r of i and unit diagonal of G S G^T, and applying it writes nothing but the n output entries.", "quantifier": "all point sets, kernels, low-rank factors P, shifts, neighbour limits, loop orders, vectors and buffer contents; exact real arithmetic, any LAPACK meeting its documentation", "why_tests_cant": "The defining equations of G involve all rows and all matrices; the CSR transposition depends on every sparsity pattern.", "anchors": ["src/AFN_precond.c: FSAI_precond_build_, FSAI_precond_apply"]}
{"id": "C54", "title": "FSAI with all neighbours is the inverse", "statement": "With a neighbour limit of at least n, S times the vector the FSAI preconditioner returns for x is x.", "quantifier": "as C53", "why_tests_cant": "An algebraic identity for all matrices.", "anchors": ["src/AFN_precond.c: FSAI_precond_build_, FSAI_precond_apply"]}
{"id": "C55", "title": "AFN preconditioner is a symmetric positive definite operator", "statement": "For distinct points, a symmetric kernel with K(X,X) + mu I positive definite and an estimated rank of at least max_k < n, AFN_precond_build succeeds for any number of threads (at most n) and schedule, and AFN_precond_apply is multiplication by one fixed symmetric positive definite matrix, with x and y in the user's ordering and whatever y and the work arrays contain (what a PCG solver requires of its preconditioner).", "quantifier": "all point sets, kernels, shifts, rank and neighbour limits, thread counts, schedules, vectors, buffer contents; exact real arithmetic", "why_tests_cant": "Definiteness is a statement about all vectors; PCG tests converge with slightly wrong preconditioners too.", "anchors": ["src/AFN_precond.c: AFN_precond_build, AFN_precond_apply, AFNi_AFN_precond_build"]}
{"id": "C56", "title": "AFN with all neighbours solves the system", "statement": "When the FSAI neighbour limit covers the points that were not sampled, AFN_precond_apply returns for every x the solution y of (K(X,X) + mu I) y = x.", "quantifier": "as C55", "why_tests_cant": "An identity through a permutation, a block factorisation and a sparse inverse for all inputs.", "anchors": ["src/AFN_precond.c: AFN_precond_build, AFN_precond_apply"]}
{"id": "C57", "title": "Farthest point sampling", "statement": "The sampling starts at the point nearest to the mean and then always takes the point farthest from those taken before (first one on a tie); the result does not depend on the number of threads or their order; for distinct points the permutation built from it contains every point once, sampled points first. (Refuted: for coincident points the permutation array is overrun; with more threads than points a thread reads past the distance array.)", "quantifier": "all point sets, sample sizes, thread counts up to n, schedules", "why_tests_cant": "A reduction over threads with ties: the result must be the same for all thread counts.", "anchors": ["src/AFN_precond.c: AFNi_FPS, AFN_precond_build"]}
{"id": "C58", "title": "Periodic matrix-vector product", "statement": "On every well-formed periodic handle, after any previous periodic products of either kind, H2P_matvec_periodic stores in its output exactly the periodic operator of C41 times the input, in the user's ordering and touching nothing past the end of the vector, whatever the thread schedules, the SIMD width and whether the kernel has a matrix-free vector form (krnl_mv); so it agrees with every column of H2P_matmul_periodic, inherits C43 and C44, and without JIT blocks it leaves the output alone.", "quantifier": "all periodic handles, vectors, output contents, histories of both products, schedules, team orders, SIMD widths >= 1, kernel dimensions, with and without krnl_mv; the interleavings of the parallel transpositions", "why_tests_cant": "Data flow over all trees, pair lists with shifts and loop schedules, with transposed layouts and reused buffers; tests compare one run against a direct sum.", "anchors": ["src/H2Pack_matvec_periodic.c: H2P_matvec_periodic, H2P_matvec_periodic_intmd_mult_JIT, H2P_matvec_periodic_dense_mult_JIT, H2P_ext_krnl_mv"]}
{"id": "C59", "title": "Nystrom preconditioner is a symmetric positive definite operator", "statement": "For distinct points, a symmetric positive semidefinite kernel with non-zero diagonal values, a positive shift mu and an estimated rank between 1 and max_k - 1, building the AFN preconditioner (its Nystrom branch) succeeds for every number of threads up to the number of points and every order of its parallel regions; applying it multiplies by one fixed symmetric positive definite matrix, with vectors in the user's order and whatever the output and the work arrays contain, so it is a valid preconditioner for CG.", "quantifier": "all point sets, kernels, shifts > 0, ranks, thread counts and orders of the parallel regions, input vectors, output contents and histories; every symmetric eigensolver and Cholesky routine meeting LAPACK's documented contract", "why_tests_cant": "Definiteness for every vector and every kernel and point set, with truncated eigenvalues, cannot be tested by sampling.", "anchors": ["src/AFN_precond.c: Nys_precond_build_, Nys_precond_apply_, AFN_precond_build, AFN_precond_apply"]}
{"id": "C60", "title": "Nystrom preconditioner inverts the shifted low-rank approximation", "statement": "Under the same conditions the operator applied is exactly eta (U diag(s + mu) U^T + eta (I - U U^T))^-1 with s = max(lam - nu, 0) and eta = s_0 + mu, where nu > 0, the columns of U are orthonormal (or zero for eigenvalues below the documented tolerance) and U diag(lam) U^T differs from the Nystrom approximation K(X,S) (K(S,S) + nu I)^-1 K(S,X) at the est_rank farthest points S by at most the truncation tolerance; with an estimated rank of 0 the construction reads outside an array.", "quantifier": "all point sets, kernels, shifts > 0, ranks >= 1, schedules, tolerances, vectors", "why_tests_cant": "The identity relates Cholesky, triangular solves, an eigendecomposition and the apply step for every matrix; tests measure CG iteration counts.", "anchors": ["src/AFN_precond.c: Nys_precond_build_, Nys_precond_apply_"]}
{"id": "C61", "title": "Block Jacobi preconditioner inverts exactly the leaf blocks", "statement": "For an H2 representation built from any point set and kernel: if building the block Jacobi preconditioner succeeds, its result applied to any vector b gives the x that solves B x = b, where B is the kernel matrix of the user's points, in the user's order, restricted to pairs of points of the same leaf cluster, plus the shift on the diagonal; every point belongs to a leaf; the order in which threads build or apply the blocks and the former content of the buffers do not matter; nothing beyond the vector is written. Without a shift, the construction cannot succeed if a leaf holds two points with the same coordinates (assertion failure).", "quantifier": "all point sets, kernels (any block size), trees, shifts, orders of the blocks in both parallel loops, vectors, buffers; every LU and triangular-solve routine meeting LAPACK's contract", "why_tests_cant": "Tests use one well-conditioned kernel and look at iteration counts of PCG, not at which matrix is inverted; the offsets of three tables and two permutations have to agree for every tree.", "anchors": ["examples/SPDHSS-H2/block_jacobi_precond.c: H2P_build_block_jacobi_precond, block_jacobi_precond_apply"]}
{"id": "C62", "title": "Block Jacobi is symmetric positive definite when the shifted kernel matrix is", "statement": "If the kernel matrix of the points is symmetric and becomes positive definite by the shift, building the block Jacobi preconditioner succeeds for every schedule and the operator that is applied is symmetric positive definite, so that PCG may use it.", "quantifier": "all point sets, real kernels, shifts, trees, schedules, vectors", "why_tests_cant": "Definiteness for all vectors and success for all matrices in a class are universal statements.", "anchors": ["examples/SPDHSS-H2/block_jacobi_precond.c: H2P_build_block_jacobi_precond, block_jacobi_precond_apply"]}
{"id": "C63", "title": "Random sampling returns different indices, prefers none, and terminates exactly when it can", "statement": "Whatever values rand() returns, a call that asks for k of n indices and returns has written k different indices from 0..n-1 (the first k different values of rand() modulo n, in that order) into the k cells given and nothing else. If k is at most n and every remainder keeps occurring, the call returns. Renaming the remainders renames the samples and changes nothing else, so no index is preferred. If k exceeds n, no number of draws suffices (the loop cannot end).", "quantifier": "all n, k, sequences of random values, numbers of retries, output arrays and work buffers", "why_tests_cant": "The retry loop depends on an infinite random sequence; tests see a few seeds.", "anchors": ["src/H2Pack_utils.c: H2P_rand_sample"]}
{"id": "C64", "title": "The random sparse product multiplies by a matrix with the promised sparsity", "statement": "The generator of random sparse matrices leaves, for any sequence of random values, buffers that describe a k-by-n matrix A with exactly min(max_nnz_col, k) entries 1 or -1 per column, in different rows, and zeros elsewhere, whatever the buffers held before; the product routine then computes y^T = A^T x^T for any number of rows, leading dimensions and order of the rows, and writes nothing else. The generator returns if every remainder keeps occurring.", "quantifier": "all sizes, random sequences, previous buffers, x, y, leading dimensions, thread schedules", "why_tests_cant": "Tests cannot see the sparsity of a matrix they do not construct, nor all random sequences.", "anchors": ["src/H2Pack_utils.c: H2P_gen_rand_sparse_mat_trans, H2P_calc_sparse_mm_trans"]}
{"id": "C65", "title": "The low-rank plus diagonal preconditioner solves a sampled approximation and is symmetric positive definite", "statement": "For a symmetric kernel with positive diagonal, a positive shift and any rank from 1 to the number of points, the construction returns (if every remainder of the random values keeps occurring; no numerical step can fail), and applying the result to b gives the x with (N + shift I) x = b in the user's order of the points, where N = K(X,S) P K(S,X) for some of the user's points S, P being the inverse of K(S,S) truncated at 1e-10 of its largest eigenvalue. The solution operator is symmetric and positive definite, whatever the random values, thread orders and previous contents of the buffers. With more coordinates per point than dimensions the construction reads out of bounds.", "quantifier": "all point sets, kernels, shifts, ranks, random sequences, thread schedules, right-hand sides, buffer contents", "why_tests_cant": "The claim is about every point set and random sequence, over exact arithmetic; a test sees a few.", "anchors": ["examples/SPDHSS-H2/LRD_precond.c: H2P_build_LRD_precond, LRD_precond_apply", "src/H2Pack_aux_structs.c: H2P_dense_mat_select_columns", "src/H2Pack_utils.c: H2P_rand_sample, H2P_eval_kernel_matrix_OMP"]}
{"id": "C66", "title": "The low-rank preconditioner uses the points that were sampled", "statement": "The columns of coordinates from which the low-rank factor is built are those of the randomly sampled points. (True when the samples come in increasing order; when the first two samples are points 1 and 0, both columns are point 1, because the columns are selected in place with an unsorted list.)", "quantifier": "all random sequences, point sets, ranks", "why_tests_cant": "The order of the random samples decides; a test with one seed sees one order.", "anchors": ["examples/SPDHSS-H2/LRD_precond.c: H2P_build_LRD_precond", "src/H2Pack_aux_structs.c: H2P_dense_mat_select_columns"]}
{"id": "C67", "title": "The parallel sparse product computes A x for every partition and schedule", "statement": "After the nonzeros of a compressed-row matrix are cut into at least one and at most nnz blocks, the sparse product stores A x in y whatever the order in which the blocks run and whatever y and the work arrays held before; empty rows get zero, rows cut by blocks are added up once, cells of y beyond the rows keep their contents. Copying the matrix block by block (first touch) copies every nonzero. With more blocks than nonzeros the product reads past the row pointers; without nonzeros the partition reads before them.", "quantifier": "all matrices (with empty rows, repeated entries), vectors, numbers of blocks, schedules, buffer contents", "why_tests_cant": "Which rows are cut depends on the number of threads and the sparsity pattern; tests see a few of them.", "anchors": ["examples/SPDHSS-H2/CSRPlus.c: CSRP_partition_multithread, CSRP_SpMV, CSRP_optimize_NUMA"]}
{"id": "C68", "title": "A matrix given by coordinates is multiplied correctly", "statement": "Building the compressed-row matrix from coordinates in any order, with repetitions (whose values are added), gives rows with nondecreasing column indices, and for every number of blocks from 1 to the number of nonzeros and every schedule the parallel product with x stores A x in y. Without nonzeros the construction reads an empty array.", "quantifier": "all coordinate lists, values, vectors, numbers of blocks, schedules of the row sort and of the product", "why_tests_cant": "The claim is about every coordinate list and schedule; a test sees a few.", "anchors": ["examples/SPDHSS-H2/CSRPlus.c: CSRP_init_with_COO_mat, qsort_int_dbl_pair, CSRP_partition_multithread, CSRP_SpMV"]}
{"id": "C69", "title": "Proxy points on box surfaces cover every side of the box of each level", "statement": "In 2 or 3 dimensions, with at most one extra coordinate, generating surface proxy points gives every level from the minimum to the maximum level the same number of points: the smallest number of the form 2 d m^(d-1) that is at least the requested number. The points of a level lie on the surface of the box around the origin whose half width is (1 + 2 alpha) times half the width of a box of this level, cover the m^(d-1) equidistant grid points of each of its 2 d sides, and have extra coordinate 0; lower levels get no points. Other dimensions are refused. With two extra coordinates, memory that was not set is read.", "quantifier": "all numbers of points, levels, box sizes, dimensions", "why_tests_cant": "Tests fix one box size, number of points and depth, and check only the accuracy of the compressed matrix.", "anchors": ["src/H2Pack_gen_proxy_point.c: H2P_generate_proxy_point_surface"]}
