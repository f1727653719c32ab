(** What partitioning a point set must achieve. *)
From Coq Require Import ZArith QArith List Lia Bool Permutation.
From Verif Require Import Base Mem Num Model_Partition Spec_Tree.
Import ListNotations.
Open Scope Z_scope.

Section Spec.
Context {F : num}.

(** All cells of an array of [n] cells hold values. *)
Definition filled {A} (m : mem A) (n : Z) : Prop := zlen m = n /\ forall k, 0 <= k < n -> exists v, ld m k = Some v.

(** The arguments H2P_partition_points accepts: a positive dimension, at least
    as many stored rows per point, at least one point, all coordinates set, and
    the optional root box set. *)
Definition points_ok (pt_dim xpt_dim n_point : Z) (coord0 : mem F) (root_enbox : option (mem F)) : Prop :=
  1 <= pt_dim <= xpt_dim /\ 1 <= n_point /\ filled coord0 (n_point * xpt_dim) /\
  match root_enbox with Some b => filled b (pt_dim * 2) | None => True end.

(** The reordered points are the original points, [idx] tells which. *)
Definition reordered (xpt_dim n_point : Z) (coord0 coord : mem F) (idx : mem Z) : Prop :=
  (exists perm, Permutation perm (zrange 0 n_point) /\ forall i, 0 <= i < n_point -> ld idx i = getz perm i) /\
  forall i j o, 0 <= i < n_point -> 0 <= j < xpt_dim -> ld idx i = Some o ->
    ld coord (j * n_point + i) = ld coord0 (j * n_point + o).

(** Effective leaf capacity (H2Pack_partition.c:548-554). *)
Definition leaf_points (pt_dim max_leaf_points : Z) : Z :=
  if max_leaf_points <=? 0 then (if pt_dim =? 2 then 200 else 400) else max_leaf_points.

(** Corner and width of node [i]'s box in dimension [j]. *)
Definition corner (pt_dim : Z) (a : tarrays F) (i j : Z) : option F := ld (a_box a) (i * (pt_dim * 2) + j).
Definition boxwidth (pt_dim : Z) (a : tarrays F) (i j : Z) : option F := ld (a_box a) (i * (pt_dim * 2) + (pt_dim + j)).

(** The subdivision rule: a node is a leaf exactly if it is small. *)
Definition leaf_rule (pt_dim max_leaf_points : Z) (max_leaf_size : F) (n_node : Z) (a : tarrays F) : Prop :=
  forall i s e lv h nc, 0 <= i < n_node -> node_data a i s e lv h nc ->
    exists w, boxwidth pt_dim a i 0 = Some w /\
      (nc = 0 <-> e - s + 1 <= leaf_points pt_dim max_leaf_points \/ nle w max_leaf_size = true).

(** The box width after [k] halvings with the safety margin of the code. *)
Fixpoint halved (k : nat) (w : F) : F :=
  match k with O => w | S k' => nadd (nmul (nlit (1#2)) (halved k' w)) (nlit (e10 2 12)) end.

End Spec.

(** Exact arithmetic: every point of a node lies in its box. *)
Definition boxes_contain (pt_dim n_point n_node : Z) (coord : mem Qnum) (a : tarrays Qnum) : Prop :=
  forall i s e lv h nc q j, 0 <= i < n_node -> node_data a i s e lv h nc -> s <= q <= e -> 0 <= j < pt_dim ->
    exists c w x : Q, corner pt_dim a i j = Some c /\ boxwidth pt_dim a i j = Some w /\
      ld coord (j * n_point + q) = Some x /\ (c <= x)%Q /\ (x <= c + w)%Q.

(** The box given by the caller contains all the points. *)
Definition box_given_ok (pt_dim n_point : Z) (coord0 : mem Qnum) (root_enbox : option (mem Qnum)) : Prop :=
  match root_enbox with
  | None => True
  | Some b => forall q j, 0 <= q < n_point -> 0 <= j < pt_dim ->
      exists c w x : Q, ld b j = Some c /\ ld b (pt_dim + j) = Some w /\ ld coord0 (j * n_point + q) = Some x /\
        (c <= x)%Q /\ (x <= c + w)%Q
  end.

(** Among any [cap + 1] points there are two whose distance in some coordinate
    is at least [d]. *)
Definition spread (pt_dim n_point cap : Z) (d : Q) (coord : mem Qnum) : Prop :=
  forall l, NoDup l -> (forall q, In q l -> 0 <= q < n_point) -> cap < zlen l ->
    exists q q' j (x x' : Q), In q l /\ In q' l /\ 0 <= j < pt_dim /\
      ld coord (j * n_point + q) = Some x /\ ld coord (j * n_point + q') = Some x' /\ (x + d <= x')%Q.
