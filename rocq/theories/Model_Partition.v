(** Model of src/H2Pack_partition.c:38-317: bisection partitioning of the points
    into a linked tree, and conversion of the tree to arrays.  Coordinates are
    numbers of an arbitrary [num] (no law assumed, see Num.v).  C ints are
    unbounded integers. *)
From Coq Require Import ZArith QArith List Lia Bool.
From Verif Require Import Base Mem Num.
Import ListNotations.
Open Scope Z_scope.

Section Partition.
Context {F : num}.

(** H2Pack_aux_structs.h struct H2P_tree_node. *)
Inductive tnode := TNode {
  t_s : Z;               (* pt_cluster[0] *)
  t_e : Z;               (* pt_cluster[1] *)
  t_nchild : Z;          (* n_child *)
  t_nnode : Z;           (* n_node *)
  t_po : Z;              (* po_idx *)
  t_level : Z;           (* level *)
  t_height : Z;          (* height *)
  t_box : mem F;         (* enbox *)
  t_children : list tnode (* children[0 .. n_child-1] *)
}.

(** The buffers the recursion works on and the part_vars counters. *)
Record pstate := PState {
  p_coord : mem F; p_ctmp : mem F;    (* coord, coord_tmp: xpt_dim rows of n_point *)
  p_idx : mem Z; p_itmp : mem Z;      (* coord_idx, coord_idx_tmp *)
  p_maxlevel : Z; p_po : Z; p_nleaf : Z
}.

(** H2Pack_partition.c:58-63,83-92 one accumulation/max pass over the points of
    this node in dimension [j]. *)
Definition sum_dim (coord : mem F) (n_point s e j : Z) (acc : F) : option F :=
  zfor s (e + 1) (fun i a => x <- ld coord (j * n_point + i); Some (nadd a x)) acc.
Definition maxdev_dim (coord : mem F) (n_point s e j : Z) (c acc : F) : option F :=
  zfor s (e + 1) (fun i a => x <- ld coord (j * n_point + i); Some (nmax a (nabs (nsub x c)))) acc.
Definition max_dev (coord : mem F) (center : mem F) (n_point s e pt_dim : Z) : option F :=
  zfor 0 pt_dim (fun j a => c <- ld center j; maxdev_dim coord n_point s e j c a) (nlit 0).

(** H2Pack_partition.c:50-108 enclosing box of the root when none is given.
    [rnd j] is the j-th drand48() after the fixed seeding. *)
Definition root_box (rnd : Z -> F) (coord : mem F) (n_point s e pt_dim : Z) : option (mem F) :=
  center <- zfor 0 pt_dim (fun j (c : mem F) => st c j (nlit 0)) (alloc pt_dim);
  center <- zfor 0 pt_dim (fun j (c : mem F) => a <- ld c j; a' <- sum_dim coord n_point s e j a; st c j a') center;
  let npts : F := nlit (inject_Z (e - s + 1)) in
  center <- zfor 0 pt_dim (fun j (c : mem F) => a <- ld c j; st c j (ndiv a npts)) center;
  semi <- max_dev coord center n_point s e pt_dim;
  let semi := nadd semi (nlit (e10 1 8)) in
  let shift_scale := nmul semi (nlit (e10 1 3)) in
  center <- zfor 0 pt_dim (fun j (c : mem F) =>
      let shift_j := nadd (nmul (rnd j) (nlit (1#2))) (nlit (1#4)) in
      a <- ld c j; st c j (nadd a (nmul shift_j shift_scale))) center;
  semi <- max_dev coord center n_point s e pt_dim;
  let semi := nadd semi (nlit (e10 1 8)) in
  zfor 0 pt_dim (fun j (b : mem F) =>
      c <- ld center j;
      b <- st b j (nsub (nsub c semi) (nlit (e10 2 12)));
      st b (pt_dim + j) (nadd (nmul (nlit 2) semi) (nlit (e10 4 12)))) (alloc (pt_dim * 2)).

(** H2Pack_partition.c:133-155 relative indices and child indices.  State:
    (rel_idx, child_idx, pow2). *)
Definition child_indices (coord enbox : mem F) (n_point s npts pt_dim : Z) : option (mem Z * mem Z) :=
  ci0 <- zfor 0 npts (fun i (c : mem Z) => st c i 0) (alloc npts);
  '(rel, ci, _) <- zfor 0 pt_dim (fun j (x : mem Z * mem Z * Z) => let '(rel, ci, pow2) := x in
      corner <- ld enbox j;
      width <- ld enbox (pt_dim + j);
      '(rel, ci) <- zfor 0 npts (fun i (y : mem Z * mem Z) => let '(rel, ci) := y in
          x <- ld coord (j * n_point + s + i);
          let rel_coord := nsub x corner in
          let r := if nle width (nmul (nlit 2) rel_coord) then 1 else 0 in
          rel <- st rel (j * npts + i) r;
          c <- ld ci i;
          ci <- st ci i (c + r * pow2);
          Some (rel, ci)) (rel, ci);
      Some (rel, ci, pow2 * 2)) (alloc (npts * pt_dim), ci0, 1);
  Some (rel, ci).

(** H2Pack_partition.c:169-176 points per child and relative index of each
    child. *)
Definition child_counts (rel ci : mem Z) (npts pt_dim max_child : Z) : option (mem Z * mem Z) :=
  nn0 <- zfor 0 max_child (fun i (c : mem Z) => st c i 0) (alloc max_child);
  zfor 0 npts (fun i (x : mem Z * mem Z) => let '(nn, sub) := x in
      c <- ld ci i;
      k <- ld nn c;
      nn <- st nn c (k + 1);
      sub <- zfor 0 pt_dim (fun j (sub : mem Z) =>
               r <- ld rel (j * npts + i);
               st sub (j * max_child + c) r) sub;
      Some (nn, sub)) (nn0, alloc (max_child * pt_dim)).

(** H2Pack_partition.c:177-179 and 212-214 displacements ([d] is the array
    before: both times every cell is overwritten). *)
Definition displacements (nn : mem Z) (max_child : Z) (d : mem Z) : option (mem Z) :=
  d <- st d 0 0;
  zfor 1 (max_child + 1) (fun i (d : mem Z) =>
      a <- ld d (i - 1); b <- ld nn (i - 1); st d i (a + b)) d.

(** H2Pack_partition.c:181-202 copy to the temporary arrays and bucket sort. *)
Definition bucket_points (xpt_dim n_point s npts : Z) (ci displs : mem Z) (p : pstate) : option (mem Z * pstate) :=
  ctmp <- zfor 0 xpt_dim (fun j (t : mem F) =>
      let off := j * n_point + s in mcpy t off (p_coord p) off npts) (p_ctmp p);
  itmp <- mcpy (p_itmp p) s (p_idx p) s npts;
  '(d, coord, idx) <- zfor 0 npts (fun i (x : mem Z * mem F * mem Z) => let '(d, coord, idx) := x in
      c <- ld ci i;
      dc <- ld d c;
      let src_idx := s + i in
      let dst_idx := s + dc in
      coord <- zfor 0 xpt_dim (fun j (co : mem F) =>
          v <- getz ctmp (src_idx + j * n_point); setz co (dst_idx + j * n_point) v) coord;
      v <- getz itmp src_idx;
      idx <- setz idx dst_idx v;
      d <- st d c (dc + 1);
      Some (d, coord, idx)) (displs, p_coord p, p_idx p);
  Some (d, PState coord ctmp idx itmp (p_maxlevel p) (p_po p) (p_nleaf p)).

(** H2Pack_partition.c:226-234 the box of child [i]. *)
Definition sub_box (enbox : mem F) (sub : mem Z) (pt_dim max_child i : Z) : option (mem F) :=
  zfor 0 pt_dim (fun j (b : mem F) =>
      c <- ld enbox j;
      w <- ld enbox (pt_dim + j);
      r <- ld sub (j * max_child + i);
      b <- st b j (nsub (nadd c (nmul (nmul (nlit (1#2)) w) (nlit (inject_Z r)))) (nlit (e10 1 12)));
      st b (pt_dim + j) (nadd (nmul (nlit (1#2)) w) (nlit (e10 2 12)))) (alloc (pt_dim * 2)).

(** H2Pack_partition.c:220-238 boxes and point ranges of the non-empty children,
    in order (the C code packs them in sub_box / sub_coord_se; a list here). *)
Definition sub_nodes (enbox : mem F) (sub nn displs : mem Z) (s pt_dim max_child : Z)
    : option (list (Z * Z * mem F)) :=
  zfor 0 max_child (fun i l =>
      k <- ld nn i;
      if k =? 0 then Some l else
      b <- sub_box enbox sub pt_dim max_child i;
      d0 <- ld displs i;
      d1 <- ld displs (i + 1);
      Some (l ++ [(s + d0, s + d1 - 1, b)])) [].

(** H2Pack_partition.c:130-238: one subdivision of the points s .. s+npts-1. *)
Definition subdivide (pt_dim xpt_dim n_point s npts : Z) (enbox : mem F) (p : pstate)
    : option (list (Z * Z * mem F) * pstate) :=
  let max_child := Z.shiftl 1 pt_dim in
  '(rel, ci) <- child_indices (p_coord p) enbox n_point s npts pt_dim;
  '(nn, sub) <- child_counts rel ci npts pt_dim max_child;
  displs <- displacements nn max_child (alloc (max_child + 1));
  '(displs, p) <- bucket_points xpt_dim n_point s npts ci displs p;
  displs <- displacements nn max_child displs;
  total <- ld displs max_child;
  if negb (total =? npts) then None else
  cs <- sub_nodes enbox sub nn displs s pt_dim max_child;
  Some (cs, p).

(** H2Pack_partition.c:240-258: the recursive calls, in order; [rec] is the
    recursive call.  Result [Some None]: some call did not finish. *)
Fixpoint visit_children (rec : Z -> Z -> mem F -> pstate -> option (option (tnode * pstate)))
    (cs : list (Z * Z * mem F)) (p : pstate) : option (option (list tnode * pstate)) :=
  match cs with
  | [] => Some (Some ([], p))
  | (s, e, b) :: cs' =>
    r <- rec s e b p;
    match r with
    | None => Some None
    | Some (t, p1) =>
      r <- visit_children rec cs' p1;
      match r with
      | None => Some None
      | Some (ts, p2) => Some (Some (t :: ts, p2))
      end
    end
  end.

(** H2Pack_partition.c:38-271 H2P_bisection_partition_points for a given box.
    [fuel] bounds the recursion depth: the result is [None] on undefined
    behaviour, [Some None] when the recursion goes deeper than [fuel], and
    [Some (Some (node, state))] when the call returns. *)
Fixpoint bisect (fuel : nat) (pt_dim xpt_dim n_point : Z) (max_leaf_size : F) (max_leaf_points : Z)
    (level s e : Z) (enbox : mem F) (p : pstate) : option (option (tnode * pstate)) :=
  match fuel with
  | O => Some None
  | S fuel' =>
    let node_npts := e - s + 1 in
    let p := PState (p_coord p) (p_ctmp p) (p_idx p) (p_itmp p)
               (if p_maxlevel p <? level then level else p_maxlevel p) (p_po p) (p_nleaf p) in
    box_size <- ld enbox pt_dim;
    if (node_npts <=? max_leaf_points) || nle box_size max_leaf_size then
      Some (Some (TNode s e 0 1 (p_po p) level 0 enbox [],
        PState (p_coord p) (p_ctmp p) (p_idx p) (p_itmp p) (p_maxlevel p) (p_po p + 1) (p_nleaf p + 1)))
    else
      '(cs, p) <- subdivide pt_dim xpt_dim n_point s node_npts enbox p;
      r <- visit_children (bisect fuel' pt_dim xpt_dim n_point max_leaf_size max_leaf_points (level + 1)) cs p;
      match r with
      | None => Some None
      | Some (ts, p) =>
        let n_node := fold_left (fun a t => a + t_nnode t) ts 1 in
        let max_child_height := fold_left (fun a t => if t_height t <? a then a else t_height t) ts 0 in
        Some (Some (TNode s e (zlen cs) n_node (p_po p) level (max_child_height + 1) enbox ts,
          PState (p_coord p) (p_ctmp p) (p_idx p) (p_itmp p) (p_maxlevel p) (p_po p + 1) (p_nleaf p)))
      end
  end.

(** H2Pack_partition.c:556-595 (steps 1 and 2 of H2P_partition_points): copy
    the coordinates, defaults, initial permutation, call on all points.
    [root_enbox] is h2pack->root_enbox ([None]: NULL). *)
Definition partition (fuel : nat) (rnd : Z -> F) (pt_dim xpt_dim n_point : Z) (coord0 : mem F)
    (max_leaf_points : Z) (max_leaf_size : F) (root_enbox : option (mem F)) : option (option (tnode * pstate)) :=
  let mlp := if max_leaf_points <=? 0 then (if pt_dim =? 2 then 200 else 400) else max_leaf_points in
  coord <- mcpy (alloc (n_point * xpt_dim)) 0 coord0 0 (n_point * xpt_dim);
  idx <- zfor 0 n_point (fun i (a : mem Z) => st a i i) (alloc n_point);
  box <- match root_enbox with
         | Some b => Some b
         | None => root_box rnd coord n_point 0 (n_point - 1) pt_dim
         end;
  bisect fuel pt_dim xpt_dim n_point max_leaf_size mlp 0 0 (n_point - 1) box
    (PState coord (alloc (n_point * xpt_dim)) idx (alloc n_point) 0 0 0).

(** The tree arrays of the H2Pack structure (H2Pack_typedef.h). *)
Record tarrays := TArr {
  a_parent : mem Z; a_children : mem Z; a_cluster : mem Z; a_nchild : mem Z;
  a_level : mem Z; a_height : mem Z;
  a_level_n : mem Z; a_level_nodes : mem Z; a_height_n : mem Z; a_height_nodes : mem Z;
  a_box : mem F
}.

(** H2Pack_partition.c:296-316: step 2 of H2P_tree_to_array for one node. *)
Definition store_node (pt_dim max_child n_leaf : Z) (t : tnode) (a : tarrays) : option tarrays :=
  let i := t_po t in
  '(ch, pa) <- zfor 0 (t_nchild t) (fun k (x : mem Z * mem Z) => let '(ch, pa) := x in
      c <- getz (t_children t) k;
      ch <- st ch (i * max_child + k) (t_po c);
      pa <- st pa (t_po c) i;
      Some (ch, pa)) (a_children a, a_parent a);
  ch <- zfor (t_nchild t) max_child (fun k (ch : mem Z) => st ch (i * max_child + k) (-1)) ch;
  cl <- st (a_cluster a) (i * 2 + 0) (t_s t);
  cl <- st cl (i * 2 + 1) (t_e t);
  bx <- mcpy (a_box a) (i * (pt_dim * 2)) (t_box t) 0 (pt_dim * 2);
  lv <- st (a_level a) i (t_level t);
  he <- st (a_height a) i (t_height t);
  nc <- st (a_nchild a) i (t_nchild t);
  ln <- ld (a_level_n a) (t_level t);
  hn <- ld (a_height_n a) (t_height t);
  lns <- st (a_level_nodes a) (t_level t * n_leaf + ln) i;
  hns <- st (a_height_nodes a) (t_height t * n_leaf + hn) i;
  ln' <- st (a_level_n a) (t_level t) (ln + 1);
  hn' <- st (a_height_n a) (t_height t) (hn + 1);
  Some (TArr pa ch cl nc lv he ln' lns hn' hns bx).

(** H2Pack_partition.c:278-317 H2P_tree_to_array. *)
Fixpoint tree_to_array (pt_dim max_child n_leaf : Z) (t : tnode) (a : tarrays) : option tarrays :=
  a <- (fix go (ts : list tnode) (a : tarrays) : option tarrays :=
          match ts with
          | [] => Some a
          | c :: ts' => a <- tree_to_array pt_dim max_child n_leaf c a; go ts' a
          end) (t_children t) a;
  store_node pt_dim max_child n_leaf t a.

(** H2Pack_partition.c:597-640: step 3 of H2P_partition_points: allocation of
    the arrays, conversion, parent of the root. *)
Definition tree_arrays (pt_dim : Z) (root : tnode) (max_level n_leaf : Z) : option tarrays :=
  let max_child := Z.shiftl 1 pt_dim in
  let n_node := t_nnode root in
  let ml := max_level + 1 in
  ln <- zfor 0 ml (fun i (m : mem Z) => st m i 0) (alloc ml);
  hn <- zfor 0 ml (fun i (m : mem Z) => st m i 0) (alloc ml);
  a <- tree_to_array pt_dim max_child n_leaf root
         (TArr (alloc n_node) (alloc (n_node * max_child)) (alloc (n_node * 2)) (alloc n_node)
               (alloc n_node) (alloc n_node) ln (alloc (ml * n_leaf)) hn (alloc (ml * n_leaf))
               (alloc (n_node * 2 * pt_dim)));
  pa <- st (a_parent a) (n_node - 1) (-1);
  Some (TArr pa (a_children a) (a_cluster a) (a_nchild a) (a_level a) (a_height a)
             (a_level_n a) (a_level_nodes a) (a_height_n a) (a_height_nodes a) (a_box a)).

(** H2Pack_partition.c:544-640: steps 1 to 3, giving the final permuted
    coordinates and index, max_level, n_leaf_node, the number of nodes and the
    tree arrays. *)
Record tree_result := TRes {
  r_coord : mem F; r_idx : mem Z; r_max_level : Z; r_n_leaf : Z; r_n_node : Z; r_arrays : tarrays
}.
Definition build_tree (fuel : nat) (rnd : Z -> F) (pt_dim xpt_dim n_point : Z) (coord0 : mem F)
    (max_leaf_points : Z) (max_leaf_size : F) (root_enbox : option (mem F)) : option (option tree_result) :=
  r <- partition fuel rnd pt_dim xpt_dim n_point coord0 max_leaf_points max_leaf_size root_enbox;
  match r with
  | None => Some None
  | Some (root, p) =>
    a <- tree_arrays pt_dim root (p_maxlevel p) (p_nleaf p);
    Some (Some (TRes (p_coord p) (p_idx p) (p_maxlevel p) (p_nleaf p) (t_nnode root) a))
  end.

End Partition.
Arguments tnode : clear implicits.
Arguments pstate : clear implicits.
Arguments tarrays : clear implicits.
Arguments tree_result : clear implicits.

(** H2Pack_partition.c:642-649 rows of the kernel matrix owned by each node. *)
Definition mat_clusters (krnl_dim n_node : Z) (cluster : mem Z) : option (mem Z) :=
  zfor 0 n_node (fun i (m : mem Z) =>
    s <- ld cluster (i * 2);
    m <- st m (i * 2) (krnl_dim * s);
    e <- ld cluster (i * 2 + 1);
    st m (i * 2 + 1) (krnl_dim * (e + 1) - 1)) (alloc (n_node * 2)).

(** H2Pack_partition.c:686-704 the dependency graph handed to the task queue
    (DAG_src_ptr, DAG_dst_idx); the arrays are filled in index order, so they
    are lists here. *)
Definition upward_dag (n_node min_adm_level : Z) (node_level parent : mem Z) : option (list Z * list Z) :=
  '(src, dst) <- zfor 0 n_node (fun node (x : list Z * list Z) => let '(src, dst) := x in
      lv <- ld node_level node;
      if lv <? min_adm_level then Some (src ++ [node], dst ++ [node])
      else p <- ld parent node; Some (src ++ [node], dst ++ [p])) ([], []);
  Some (src ++ [n_node], dst).
