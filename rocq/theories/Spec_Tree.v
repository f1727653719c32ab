(** What a cluster tree stored in arrays must satisfy. *)
From Coq Require Import ZArith List Lia Bool.
From Verif Require Import Base Mem Num Model_Partition.
Import ListNotations.
Open Scope Z_scope.

Section Spec.
Context {F : num}.

(** The data recorded for node [i]: first and last point, level, height, number
    of children. *)
Definition node_data (a : tarrays F) (i s e lv h nc : Z) : Prop :=
  ld (a_cluster a) (i * 2 + 0) = Some s /\ ld (a_cluster a) (i * 2 + 1) = Some e /\
  ld (a_level a) i = Some lv /\ ld (a_height a) i = Some h /\ ld (a_nchild a) i = Some nc.

(** The nodes [cs] are children of [p] at level [lv] and their point ranges,
    non-empty, follow each other from [s] to [e]. *)
Fixpoint tiles (a : tarrays F) (p lv s e : Z) (cs : list Z) : Prop :=
  match cs with
  | [] => e = s - 1
  | c :: cs' => exists ce h nc, node_data a c s ce lv h nc /\ ld (a_parent a) c = Some p /\
                  0 <= c < p /\ s <= ce /\ tiles a p lv (ce + 1) e cs'
  end.

(** The row [row] of [tbl] (rows of [cap] cells) lists, in increasing order and
    without repetition, exactly the nodes satisfying [f]; [cnt] at [row] is
    their number. *)
Definition lists (tbl cnt : mem Z) (cap row : Z) (f : Z -> Prop) : Prop :=
  exists ns, ld cnt row = Some (zlen ns) /\ zlen ns <= cap /\
    (forall k, 0 <= k < zlen ns -> ld tbl (row * cap + k) = getz ns k) /\
    (forall i, In i ns <-> f i) /\
    (forall k k' x y, 0 <= k < k' -> getz ns k = Some x -> getz ns k' = Some y -> x < y).

Record cluster_tree (pt_dim n_point n_node max_level n_leaf : Z) (a : tarrays F) : Prop := {
  ct_root : 1 <= n_node /\ ld (a_parent a) (n_node - 1) = Some (-1) /\
    exists nc, node_data a (n_node - 1) 0 (n_point - 1) 0 max_level nc;
  ct_node : forall i, 0 <= i < n_node -> exists s e lv h nc, node_data a i s e lv h nc /\
    0 <= s <= e /\ e < n_point /\ 0 <= lv <= max_level /\ 0 <= h <= max_level /\
    0 <= nc <= 2 ^ pt_dim /\ (nc = 0 <-> h = 0);
  ct_children : forall i s e lv h nc, 0 <= i < n_node -> node_data a i s e lv h nc -> nc <> 0 ->
    exists cs, zlen cs = nc /\
      (forall k, 0 <= k < nc -> ld (a_children a) (i * 2 ^ pt_dim + k) = getz cs k) /\
      tiles a i (lv + 1) s e cs /\
      (forall c, In c cs -> exists hc, ld (a_height a) c = Some hc /\ hc < h) /\
      (exists c, In c cs /\ ld (a_height a) c = Some (h - 1));
  ct_unused : forall i k nc, 0 <= i < n_node -> ld (a_nchild a) i = Some nc -> nc <= k < 2 ^ pt_dim ->
    ld (a_children a) (i * 2 ^ pt_dim + k) = Some (-1);
  ct_parent : forall i, 0 <= i < n_node - 1 -> exists p nc k, ld (a_parent a) i = Some p /\ i < p < n_node /\
    ld (a_nchild a) p = Some nc /\ 0 <= k < nc /\ ld (a_children a) (p * 2 ^ pt_dim + k) = Some i;
  ct_postorder : forall i j si ei li hi ni sj ej lj hj nj, 0 <= i < j -> j < n_node ->
    node_data a i si ei li hi ni -> node_data a j sj ej lj hj nj ->
    ei < sj \/ (sj <= si /\ ei <= ej);
  ct_leaf_of_point : forall q, 0 <= q < n_point ->
    exists i, (0 <= i < n_node /\ exists s e lv, node_data a i s e lv 0 0 /\ s <= q <= e) /\
      forall i', (0 <= i' < n_node /\ exists s e lv, node_data a i' s e lv 0 0 /\ s <= q <= e) -> i' = i;
  ct_levels : forall l, 0 <= l <= max_level ->
    lists (a_level_nodes a) (a_level_n a) n_leaf l (fun i => 0 <= i < n_node /\ ld (a_level a) i = Some l);
  ct_heights : forall h, 0 <= h <= max_level ->
    lists (a_height_nodes a) (a_height_n a) n_leaf h (fun i => 0 <= i < n_node /\ ld (a_height a) i = Some h);
  ct_nleaf : ld (a_height_n a) 0 = Some n_leaf
}.

End Spec.
