(** What H2P_build must establish. *)
From Coq Require Import ZArith QArith List Lia Bool Permutation.
From Verif Require Import Base Mem Num CRing Conc Model_Utils Spec_Utils Model_Dense Spec_Dense Model_Partition Spec_Tree Spec_Partition Model_Pairs Spec_Pairs
  Model_Matvec Spec_Matvec Model_Build.
Import ListNotations.
Open Scope Z_scope.

Section Spec.
Context {F : num} {K : cring}.

(** Coordinates of point [i] of an array of [n_point] points. *)
Definition coords_of (xpt_dim n_point : Z) (coord : mem F) (i : Z) : list F :=
  map (fun d => val (nlit 0%Q) (ld coord (d * n_point + i))) (zrange 0 xpt_dim).

(** The kernel matrix of the points [pt 0], [pt 1], ... *)
Definition kernel_matrix (kern : list F -> list F -> Z -> Z -> K) (kdim : Z) (pt : Z -> list F) (I J : Z) : K :=
  kern (pt (I / kdim)) (pt (J / kdim)) (I mod kdim) (J mod kdim).

(** Level, number of children, k-th child and number of points of node i. *)
Definition lev (a : tarrays F) i : Z := val 0 (ld (a_level a) i).
Definition nch (a : tarrays F) i : Z := val 0 (ld (a_nchild a) i).
Definition chd (a : tarrays F) pt_dim i k : Z := val 0 (ld (a_children a) (i * 2 ^ pt_dim + k)).
Definition npts (a : tarrays F) i : Z := val 0 (ld (a_cluster a) (i * 2 + 1)) - val 0 (ld (a_cluster a) (i * 2)) + 1.

(** The projection matrices [U], skeletons [J] and skeleton coordinates [Jc]
    that the first phase of H2P_build hands to the second one: node i's skeleton
    is the list [js i] of some of its own points, [U i] has one column per
    skeleton row and one row per point row (leaf) or children's skeleton row. *)
Record skeletons_ok {A : Type} (pt_dim xpt_dim kdim n_point n_node minlevel : Z) (coord : mem F) (a : tarrays F)
    (U : list (dmat A)) (J : list int_vec) (Jc : list (dmat F)) (js : Z -> list Z) : Prop := {
  sk_len : zlen U = n_node /\ zlen J = n_node /\ zlen Jc = n_node;
  sk_J : forall i v, getz J i = Some v -> iv_holds v (js i);
  sk_Jc : forall i m, getz Jc i = Some m -> dm_ncol m = zlen (js i) /\
    forall d k p, 0 <= d < xpt_dim -> getz (js i) k = Some p -> ld (dm_data m) (d * dm_ncol m + k) = ld coord (d * n_point + p);
  sk_own : forall i p, 0 <= i < n_node -> minlevel <= lev a i -> In p (js i) -> owns a i p = true;
  sk_U : forall i V, getz U i = Some V ->
    (lev a i < minlevel -> dm_ncol V = 0) /\
    (minlevel <= lev a i -> 1 <= zlen (js i) /\ dm_ncol V = kdim * zlen (js i) /\
       dm_nrow V = kdim * (if nch a i =? 0 then npts a i else zsumf (fun k => zlen (js (chd a pt_dim i k))) 0 (nch a i)) /\
       fits (dm_nrow V) (dm_ncol V) 0 (dm_ld V) (zlen (dm_data V)) /\
       forall r c, 0 <= r < dm_nrow V -> 0 <= c < dm_ncol V -> exists v, ld (dm_data V) (r * dm_ld V + c) = Some v)
}.

(** The row of the kernel matrix, in H2Pack's ordering, that the r-th row (or
    column) of the block of a pair belongs to, on the side of node n, the other
    node being m: a skeleton row of n, or n's own r-th row if m is deeper. *)
Definition block_row (h : h2rep F K) (js : Z -> list Z) (n m r : Z) : Z :=
  if level h m <=? level h n then h_kdim h * nthz (js n) (r / h_kdim h) + r mod h_kdim h else mfirst h n + r.

(** The threads' interleavings and the sorting orders are ones OpenMP may
    produce; the teams are assumed to have n_thread threads. *)
Record build_sched_ok (kdim n_thread : Z) (t : tree_result F) (ps : pairs) (J : list int_vec) (blkB blkD0 blkD1 : int_vec) (sc : build_sched) : Prop := {
  bo_ordB : Permutation (bs_ordB sc) (zrange 0 (r_n_node t));
  bo_ordD : Permutation (bs_ordD sc) (zrange 0 (r_n_node t));
  bo_evB : forall m nr v, gen_B_metadata kdim (r_n_node t) n_thread 1 false (a_level (r_arrays t)) (a_cluster (r_arrays t)) J (ps_adm ps) (bs_ordB sc) blkB = Some (m, nr, v) ->
    B_AOT_schedule n_thread v (bs_evB sc);
  bo_evD : forall m v0 v1, gen_D_metadata kdim (r_n_node t) (r_n_leaf t) n_thread 1 false (a_height_nodes (r_arrays t)) (a_cluster (r_arrays t)) (ps_inadm ps) (bs_ordD sc) blkD0 blkD1 = Some (m, v0, v1) ->
    D_AOT_schedule n_thread v0 v1 (bs_evD sc)
}.

(** The stored blocks are the kernel matrix restricted to their rows and
    columns. *)
Definition blocks_are_kernel (h : h2rep F K) (js : Z -> list Z) (KM : Z -> Z -> K) : Prop :=
  (forall k r c, 0 <= k < h_nleaf h -> 0 <= r < msize h (leaf h k) -> 0 <= c < msize h (leaf h k) ->
     Dval h k r c = KMp h KM (mfirst h (leaf h k) + r) (mfirst h (leaf h k) + c)) /\
  (forall k n0 n1 r c, getz (h_inadm h) k = Some (n0, n1) -> 0 <= r < msize h n0 -> 0 <= c < msize h n1 ->
     Dval h (h_nleaf h + k) r c = KMp h KM (mfirst h n0 + r) (mfirst h n1 + c)) /\
  (forall k n0 n1 r c, getz (h_adm h) k = Some (n0, n1) -> 0 <= r < Bnrow h k -> 0 <= c < Bncol h k ->
     Bval h k r c = KMp h KM (block_row h js n0 n1 r) (block_row h js n1 n0 c)).

(** ** Exact interpolation (C34) *)

(** The c-th skeleton row of node i, in H2Pack's ordering. *)
Definition skel_row (h : h2rep F K) (js : Z -> list Z) (i c : Z) : Z :=
  h_kdim h * nthz (js i) (c / h_kdim h) + c mod h_kdim h.

(** Row q lies in a node m that forms an admissible pair with i or an ancestor n
    of i, n being compressed in that pair (it is not above m). *)
Definition far (h : h2rep F K) (i q : Z) : Prop :=
  exists n m, (In (n, m) (h_adm h) \/ In (m, n) (h_adm h)) /\ level h m <= level h n /\ inside h m q = true /\
    level h n <= level h i /\ mfirst h n <= mfirst h i /\ mlast h i <= mlast h n.

(** The rows a node's U interpolates - its own rows for a leaf, its children's
    skeleton rows otherwise - are reproduced from its skeleton rows on every
    far column. *)
Definition interpolates (h : h2rep F K) (js : Z -> list Z) (KM : Z -> Z -> K) : Prop :=
  forall i q, 0 <= i < h_nnode h -> h_minlevel h <= level h i -> far h i q ->
    (nchild h i = 0 -> forall r, 0 <= r < msize h i ->
       KMp h KM (mfirst h i + r) q = rsum 0 (rank h i) (fun c => cmul (Uval h i r c) (KMp h KM (skel_row h js i c) q))) /\
    (forall k d, 0 <= k < nchild h i -> 0 <= d < rank h (child h i k) ->
       KMp h KM (skel_row h js (child h i k) d) q =
       rsum 0 (rank h i) (fun c => cmul (Uval h i (choff h i k + d) c) (KMp h KM (skel_row h js i c) q))).

(** ** The inputs of H2P_build, and how they come about *)

(** The points are partitioned, the pairs computed, at least one of them
    admissible, and the first phase of H2P_build has delivered bases and
    skeletons. *)
Record build_inputs fuel rnd (pt_dim xpt_dim kdim n_point n_thread : Z) (coord0 : mem F) max_leaf_points max_leaf_size root_enbox
    (alpha : F) depth (t : tree_result F) (ps : pairs) (U : list (dmat K)) (J : list int_vec) (Jc : list (dmat F)) (js : Z -> list Z)
    (blkB blkD0 blkD1 : int_vec) (sc : build_sched) : Prop := {
  bi_dims : 1 <= kdim /\ 1 <= n_thread;
  bi_points : points_ok pt_dim xpt_dim n_point coord0 root_enbox;
  bi_tree : build_tree fuel rnd pt_dim xpt_dim n_point coord0 max_leaf_points max_leaf_size root_enbox = Some (Some t);
  bi_depth : 2 * r_n_node t <= Z.of_nat depth;
  bi_pairs : calc_reduced_adm_pairs depth pt_dim alpha 0 (r_n_node t) (r_max_level t) (r_arrays t) = Some ps;
  bi_some : ps_adm ps <> [];
  bi_skel : skeletons_ok pt_dim xpt_dim kdim n_point (r_n_node t) (ps_min_level ps) (r_coord t) (r_arrays t) U J Jc js;
  bi_blk : (exists l, iv_holds blkB l) /\ (exists l, iv_holds blkD0 l) /\ (exists l, iv_holds blkD1 l);
  bi_sched : build_sched_ok kdim n_thread t ps J blkB blkD0 blkD1 sc
}.

(** ** Block tables (C26) *)

(** Slots of nrow*ncol cells one after the other from cell 0, filling [data],
    every cell of which is set. *)
Definition slots_ok (m : bmeta) (n : Z) (data : mem K) : Prop :=
  ld (bm_ptr m) 0 = Some 0 /\
  (forall k, 0 <= k < n -> exists nrow ncol p, ld (bm_nrow m) k = Some nrow /\ ld (bm_ncol m) k = Some ncol /\ 0 <= nrow /\ 0 <= ncol /\
     ld (bm_ptr m) k = Some p /\ ld (bm_ptr m) (k + 1) = Some (p + nrow * ncol)) /\
  ld (bm_ptr m) n = Some (zlen data) /\
  forall c, 0 <= c < zlen data -> exists v, ld data c = Some v.

(** ** Block retrieval (C27) *)

(** [o] holds an nrow-by-ncol matrix with entries [f]; [trans]: marked as a
    transposed view by its negative leading dimension. *)
Definition block_view (o : dmat K) (trans : bool) (nrow ncol : Z) (f : Z -> Z -> K) : Prop :=
  dm_nrow o = nrow /\ dm_ncol o = ncol /\ dm_ld o = (if trans then - ncol else ncol) /\
  forall r c, 0 <= r < nrow -> 0 <= c < ncol -> ld (dm_data o) (r * ncol + c) = Some (f r c).
End Spec.
