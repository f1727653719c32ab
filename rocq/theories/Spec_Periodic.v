(** What the periodic product must compute, and on which handles. *)
From Coq Require Import ZArith QArith List Lia Bool Permutation.
From Verif Require Import Base Mem Num CRing Model_Utils Spec_Utils Model_Dense Spec_Dense Model_Partition Spec_Tree Spec_Partition Model_CSR Spec_CSR Model_Pairs Spec_Pairs
  Model_Matvec Spec_Matvec Model_Build Spec_Build Model_Periodic.
Import ListNotations.
Open Scope Z_scope.

Section Spec.
Context {F : num} {K : cring}.
Local Open Scope ring_K.
Variable kern : list F -> list F -> Z -> Z -> K.

(** The point [q] moved by the vector [s], as the code computes it. *)
Definition moved (q : list F) (s : Z -> F) : list F :=
  map (fun d => nadd (nth (Z.to_nat d) q (nlit 0%Q)) (nmul (nlit 1%Q) (s d))) (zrange 0 (zlen q)).

(** The point [q] after the shift of the root skeleton has been undone, and after
    [n] lattices have been handled: [q] again when the arithmetic is exact. *)
Definition moved_back (q : list F) (s : Z -> F) : list F :=
  map (fun d => nadd (nth (Z.to_nat d) q (nlit 0%Q)) (nmul (nlit (-1)%Q) (s d))) (zrange 0 (zlen q)).
Fixpoint drift (sh : Z -> Z -> F) (n : nat) (q : list F) : list F :=
  match n with
  | O => q
  | S m => let q' := drift sh m q in moved_back (moved q' (sh (Z.of_nat m))) (sh (Z.of_nat m))
  end.
(** Shifting [q] by any of the [n] lattice vectors and back gives [q] again. *)
Definition undone (sh : Z -> Z -> F) (n : Z) (q : list F) : Prop :=
  forall l, 0 <= l < n -> moved_back (moved q (sh l)) (sh l) = q.
(** Entry (r, c) of the root block: the periodic kernel minus the kernel with
    each of the [n] lattice copies, for points [P]. *)
Definition root_block (pkern : list F -> list F -> Z -> Z -> K) (kd n : Z) (P : Z -> list F) (sh : Z -> Z -> F) (r c : Z) : K :=
  pkern (P (r / kd)%Z) (P (c / kd)%Z) (r mod kd)%Z (c mod kd)%Z
  - rsum 0 n (fun l => kern (P (r / kd)%Z) (moved (drift sh (Z.to_nat l) (P (c / kd)%Z)) (sh l)) (r mod kd)%Z (c mod kd)%Z).

Variable h : h2rep F K.
(** [pt i]: coordinates of point i, in H2Pack's ordering. *)
Variable pt : Z -> list F.
(** [js i]: the skeleton points of node i. *)
Variable js : Z -> list Z.
(** The admissible and inadmissible pairs and their shifts; the root block. *)
Variables (adm inadm : list (Z * Z)) (sB sD : Z -> Z -> F) (O : Z -> Z -> K).

(** Entry (p, q) of the kernel matrix with the column points moved by [s]. *)
Definition kshift (s : Z -> F) (p q : Z) : K :=
  kern (pt (p / h_kdim h)) (moved (pt (q / h_kdim h)) s) (p mod h_kdim h) (q mod h_kdim h).

Definition no_shift : Z -> F := fun _ => nlit 0%Q.

(** Number of rows (columns) of the block of a pair on the side of n. *)
Definition side_size (n m : Z) : Z := if level h m <=? level h n then rank h n else msize h n.

(** The four kinds of contributions to entry (p, q). *)
Definition per_leaf (k p q : Z) : K :=
  if inside h (leaf h k) p && inside h (leaf h k) q then kshift no_shift p q else c0.
Definition per_inadm (k p q : Z) : K :=
  match getz inadm k with
  | Some (n0, n1) => if inside h n0 p && inside h n1 q then kshift (sD k) p q else c0
  | None => c0
  end.
Definition per_adm (k p q : Z) : K :=
  match getz adm k with
  | Some (n0, n1) => rsum 0 (side_size n0 n1) (fun r => rsum 0 (side_size n1 n0) (fun c =>
      side h n0 n1 r p * kshift (sB k) (block_row h js n0 n1 r) (block_row h js n1 n0 c) * side h n1 n0 c q))
  | None => c0
  end.
Definition root : Z := (h_nnode h - 1)%Z.
Definition per_far (p q : Z) : K :=
  rsum 0 (rank h root) (fun r => rsum 0 (rank h root) (fun c => basis h root p r * O r c * basis h root q c)).

(** The matrix of the periodic product, in H2Pack's ordering. *)
Definition Hper (p q : Z) : K :=
  rsum 0 (h_nleaf h) (fun k => per_leaf k p q)
  + rsum 0 (zlen inadm) (fun k => per_inadm k p q)
  + rsum 0 (zlen adm) (fun k => per_adm k p q)
  + per_far p q.

(** The tree, bases and permutations of a handle built by H2P_build_periodic. *)
Record per_rep_ok : Prop := {
  pr_dims : 1 <= h_ptdim h /\ 1 <= h_kdim h /\ 1 <= h_nthread h /\ h_maxchild h = 2 ^ h_ptdim h /\
    h_kms h = (h_kdim h * h_npoint h)%Z /\ h_minlevel h = 0 /\ 0 <= h_maxlevel h;
  pr_tree : cluster_tree (h_ptdim h) (h_npoint h) (h_nnode h) (h_maxlevel h) (h_nleaf h) (h_t h);
  pr_mcl : forall i s e, 0 <= i < h_nnode h -> ld (a_cluster (h_t h)) (i * 2 + 0) = Some s ->
    ld (a_cluster (h_t h)) (i * 2 + 1) = Some e ->
    ld (h_mcl h) (i * 2) = Some (h_kdim h * s)%Z /\ ld (h_mcl h) (i * 2 + 1) = Some (h_kdim h * (e + 1) - 1)%Z;
  pr_U : zlen (h_U h) = h_nnode h /\ forall i U, getz (h_U h) i = Some U ->
    1 <= dm_ncol U /\ dm_nrow U = (if nchild h i =? 0 then msize h i else choff h i (nchild h i)) /\
    fits (dm_nrow U) (dm_ncol U) 0 (dm_ld U) (zlen (dm_data U)) /\
    forall r c, 0 <= r < dm_nrow U -> 0 <= c < dm_ncol U -> exists v, ld (dm_data U) (r * dm_ld U + c) = Some v;
  pr_nr : zlen (h_nr h) = h_nnode h /\ forall i, 0 <= i < h_nnode h -> exists n, ld (h_nr h) i = Some n /\
    (forall k n1, getz adm k = Some (i, n1) -> n <> 0);
  pr_pmt : zlen (h_fwd h) = h_kms h /\ zlen (h_bwd h) = h_kms h /\
    forall i, 0 <= i < h_kms h -> 0 <= nthz (h_fwd h) i < h_kms h /\ 0 <= nthz (h_bwd h) i < h_kms h /\
      nthz (h_bwd h) (nthz (h_fwd h) i) = i /\ nthz (h_fwd h) (nthz (h_bwd h) i) = i
}.

(** The entries of row [n] of the pair-to-index matrix: (column, index + 1). *)
Definition index_row (pairs : list (Z * Z * Z)) (n : Z) : list (option Z * option Z) :=
  map (fun '(_, j, v) => (Some j, Some v)) (filter (fun '(i, _, _) => i =? n) pairs).
Definition index_ok (pairs : list (Z * Z * Z)) (m : bmeta) : Prop :=
  forall n, 0 <= n < h_nnode h -> exists a b, ld (bm_rowptr m) n = Some a /\ ld (bm_rowptr m) (n + 1) = Some b /\ a <= b /\
    Permutation (cells (bm_colidx m) (bm_val m) a b) (index_row pairs n).
(** The pairs numbered from [o] + 1 on. *)
Definition numbered (o : Z) (l : list (Z * Z)) : list (Z * Z * Z) :=
  map (fun k => let '(i, j) := nth (Z.to_nat k) l (0, 0) in (i, j, o + k + 1)%Z) (zrange 0 (zlen l)).
Definition leaf_pairs : list (Z * Z * Z) := map (fun k => (leaf h k, leaf h k, k + 1)%Z) (zrange 0 (h_nleaf h)).

(** The remaining fields of the handle. *)
Record per_ok (c : pctx F K) : Prop := {
  po_dims : 1 <= q_dim c <= q_xdim c /\ q_xdim c <= 8 /\ q_kdim c = h_kdim h /\ q_npoint c = h_npoint h /\
    q_nleaf c = h_nleaf h /\ q_cluster c = a_cluster (h_t h);
  po_pt : forall i, 0 <= i < h_npoint h -> zlen (pt i) = q_xdim c /\
    forall d, 0 <= d < q_xdim c -> ld (q_coord c) (d * h_npoint h + i) = getz (pt i) d;
  po_js : forall i, 0 <= i < h_nnode h -> rank h i = (h_kdim h * zlen (js i))%Z /\ forall p, In p (js i) -> 0 <= p < h_npoint h;
  po_Jc : zlen (q_Jc c) = h_nnode h /\ forall i m, getz (q_Jc c) i = Some m ->
    dm_holds m (q_xdim c) (zlen (js i)) (fun d k => nth (Z.to_nat d) (pt (nthz (js i) k)) (nlit 0%Q));
  po_adm : forall k n0 n1, getz adm k = Some (n0, n1) -> 0 <= n0 < h_nnode h /\ 0 <= n1 < h_nnode h /\
    ld (bm_nrow (q_bm c)) k = Some (side_size n0 n1) /\ ld (bm_ncol (q_bm c)) k = Some (side_size n1 n0) /\
    (forall d, 0 <= d < q_dim c -> ld (q_shB c) (k * q_dim c + d) = Some (sB k d)) /\ (forall d, q_dim c <= d -> sB k d = nlit 0%Q);
  po_B : index_ok (numbered 0 adm) (q_bm c);
  po_leaf : forall k, 0 <= k < h_nleaf h ->
    ld (bm_nrow (q_dm c)) k = Some (msize h (leaf h k)) /\ ld (bm_ncol (q_dm c)) k = Some (msize h (leaf h k));
  po_inadm : forall k n0 n1, getz inadm k = Some (n0, n1) -> 0 <= n0 < h_nnode h /\ 0 <= n1 < h_nnode h /\
    ld (bm_nrow (q_dm c)) (h_nleaf h + k) = Some (msize h n0) /\ ld (bm_ncol (q_dm c)) (h_nleaf h + k) = Some (msize h n1) /\
    (forall d, 0 <= d < q_dim c -> ld (q_shD c) (k * q_dim c + d) = Some (sD k d)) /\ (forall d, q_dim c <= d -> sD k d = nlit 0%Q);
  po_D : index_ok (leaf_pairs ++ numbered (h_nleaf h) inadm) (q_dm c);
  po_root : q_Jroot c = zlen (js root) /\ (forall k n1, getz adm k = Some (root, n1) -> False) /\
    forall r cc, 0 <= r < rank h root -> 0 <= cc < rank h root -> ld (q_blk c) (r * rank h root + cc) = Some (O r cc)
}.

(** ** What the matrix of the product approximates *)

(** Listed pairs with their lattice, (n0, n1, l).  Every ordered pair of points
    is covered once per lattice; for the lattice [l0] of the unshifted box points
    of the same leaf are left to the leaf's own block. *)
Definition lattice_of (ts : list (Z * Z * Z)) (k : Z) : Z := match getz ts k with Some (_, _, l) => l | None => 0 end.
Definition covers (ts : list (Z * Z * Z)) (l i j : Z) : Z :=
  zcount (fun '(n0, n1, k) => (k =? l) && owns (h_t h) n0 i && owns (h_t h) n1 j) ts.
Definition covered_per (nl l0 : Z) (ta ti : list (Z * Z * Z)) : Prop :=
  forall l i j, 0 <= l < nl -> 0 <= i < h_npoint h -> 0 <= j < h_npoint h ->
    (l = l0 /\ same_leaf (h_t h) (h_nnode h) i j /\ covers ta l i j = 0 /\ covers ti l i j = 0) \/
    (~ (l = l0 /\ same_leaf (h_t h) (h_nnode h) i j) /\ (covers ta l i j + covers ti l i j)%Z = 1).

(** Entry (p, q) of the periodic kernel matrix, in H2Pack's ordering. *)
Definition pentry (pkern : list F -> list F -> Z -> Z -> K) (p q : Z) : K :=
  pkern (pt (p / h_kdim h)%Z) (pt (q / h_kdim h)%Z) (p mod h_kdim h)%Z (q mod h_kdim h)%Z.

(** What the root block stands for: the periodic kernel without the [nl] lattice
    copies that the listed pairs cover. *)
Definition rest (pkern : list F -> list F -> Z -> Z -> K) (nl : Z) (sh : Z -> Z -> F) (p q : Z) : K :=
  pentry pkern p q - rsum 0 nl (fun l => kshift (sh l) p q).

(** The rows (columns) of a listed pair's kernel block are reproduced from the
    rows (columns) of its skeleton. *)
Definition pair_interpolates (ta : list (Z * Z * Z)) (sh : Z -> Z -> F) : Prop := forall k n0 n1 l, getz ta k = Some (n0, n1, l) ->
  (forall p c', inside h n0 p = true -> 0 <= c' < side_size n1 n0 ->
     rsum 0 (side_size n0 n1) (fun r => side h n0 n1 r p * kshift (sh l) (block_row h js n0 n1 r) (block_row h js n1 n0 c')) = kshift (sh l) p (block_row h js n1 n0 c')) /\
  (forall p q, inside h n0 p = true -> inside h n1 q = true ->
     rsum 0 (side_size n1 n0) (fun c' => kshift (sh l) p (block_row h js n1 n0 c') * side h n1 n0 c' q) = kshift (sh l) p q).
(** ... and what the root block stands for from the skeleton of the root. *)
Definition root_interpolates (pkern : list F -> list F -> Z -> Z -> K) (nl : Z) (sh : Z -> Z -> F) : Prop :=
  (forall p c', 0 <= p < h_kms h -> 0 <= c' < rank h root ->
     rsum 0 (rank h root) (fun r => basis h root p r * rest pkern nl sh (skel_row h js root r) (skel_row h js root c')) = rest pkern nl sh p (skel_row h js root c')) /\
  (forall p q, 0 <= p < h_kms h -> 0 <= q < h_kms h ->
     rsum 0 (rank h root) (fun c' => rest pkern nl sh p (skel_row h js root c') * basis h root q c') = rest pkern nl sh p q).

(** The working buffers have their sizes; their contents do not matter. *)
Record pst_ok (z : pst F K) : Prop := {
  ps_y0 : mats_ok (h_nnode h) (s_y0 (fst z)); ps_y1 : mats_mok (h_nnode h) (s_y1 (fst z));
  ps_m0 : zlen (s_m0 (fst z)) = h_nthread h /\ Forall dm_ok (s_m0 (fst z));
  ps_m1 : zlen (snd z) = h_nthread h /\ Forall dm_ok (snd z)
}.
End Spec.

Section Inputs.
Context {F : num} {K : cring}.
(** Component [d] of the shift of lattice [l]: the width of the root box times
    the lattice vector; the coordinates after the first pt_dim are not shifted. *)
Definition lattice_shift (pt_dim : Z) (lattices : mem F) (t : tree_result F) (l d : Z) : F :=
  if (0 <=? d) && (d <? pt_dim) then nmul (val (nlit 0%Q) (ld (a_box (r_arrays t)) ((r_n_node t - 1) * (2 * pt_dim) + pt_dim + d))) (val (nlit 0%Q) (ld lattices (l * pt_dim + d)))
  else nlit 0%Q.

(** The triples of one kind. *)
Definition of_kind (kind : bool) (ts : list (bool * (Z * Z * Z))) : list (Z * Z * Z) := map snd (filter (fun x => Bool.eqb (fst x) kind) ts).

(** What is handed to H2P_build_periodic: a partitioned point set with the pairs
    [ts] of its lattices, bases and skeletons for every node, buffers. *)
Record per_inputs fuel rnd (pt_dim xpt_dim kdim n_point n_thread : Z) (coord0 : mem F) max_leaf_points max_leaf_size root_enbox
    (alpha : F) depth (t : tree_result F) (n_lattice : Z) (lattices : mem F) (ts : list (bool * (Z * Z * Z))) (adm inadm : mem Z * mem F)
    (U : list (dmat K)) (J : list int_vec) (Jc : list (dmat F)) (js : Z -> list Z) (blkB blkD0 blkD1 : int_vec) (ordB ordD : list Z) (m0 : dmat F) (m1 : dmat K) : Prop := {
  pi_dims : 1 <= kdim /\ 1 <= n_thread /\ pt_dim <= 4 /\ xpt_dim <= 8 /\ 0 <= n_lattice;
  pi_points : points_ok pt_dim xpt_dim n_point coord0 root_enbox;
  pi_tree : build_tree fuel rnd pt_dim xpt_dim n_point coord0 max_leaf_points max_leaf_size root_enbox = Some (Some t);
  pi_depth : 2 * r_n_node t <= Z.of_nat depth;
  pi_lattices : filled lattices (n_lattice * pt_dim);
  pi_triples : all_pairs_per depth pt_dim alpha n_lattice lattices (r_n_node t) (r_arrays t) = Some ts;
  pi_pairs : pairs_of_periodic depth pt_dim alpha n_lattice lattices (r_n_node t) (r_arrays t) = Some (adm, inadm);
  pi_some : of_kind true ts <> [];
  pi_root : forall n1 l, ~ In (r_n_node t - 1, n1, l) (of_kind true ts);
  pi_skel : skeletons_ok pt_dim xpt_dim kdim n_point (r_n_node t) 0 (r_coord t) (r_arrays t) U J Jc js;
  pi_Jc : forall i m, getz Jc i = Some m -> dm_ok m /\ dm_nrow m = xpt_dim /\ dm_ld m = dm_ncol m;
  pi_blk : (exists l, iv_holds blkB l) /\ (exists l, iv_holds blkD0 l) /\ (exists l, iv_holds blkD1 l);
  pi_ord : Permutation ordB (zrange 0 (r_n_node t)) /\ Permutation ordD (zrange 0 (r_n_node t));
  pi_buf : dm_ok m0 /\ dm_ok m1
}.

(** Lattice number [l0] is the unshifted box; all others are shifted by more than
    the code's threshold. *)
Definition one_unshifted (pt_dim : Z) (lattices : mem F) (t : tree_result F) (n_lattice l0 : Z) : Prop :=
  0 <= l0 < n_lattice /\ (forall d, lattice_shift pt_dim lattices t l0 d = nlit 0%Q) /\ ~ shifted pt_dim (lattice_shift pt_dim lattices t l0) /\
  forall l, 0 <= l < n_lattice -> l <> l0 -> shifted pt_dim (lattice_shift pt_dim lattices t l).
End Inputs.
