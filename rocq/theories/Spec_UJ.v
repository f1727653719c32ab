(** What the construction of bases from proxy points must deliver.  Not a model
    of code. *)
From Coq Require Import ZArith QArith List Lia Bool Permutation Reals.
From Verif Require Import Base Mem Num FNum Conc Model_Utils Spec_Utils Model_Dense Spec_Dense Model_Partition Spec_Tree Spec_Pairs Spec_Matvec Spec_Build Model_ID Spec_ID
  Model_DagQueue Spec_DagQueue Model_UJ.
Import ListNotations.
Open Scope Z_scope.

Section Spec.
Context {F : num} {E : fnum}.

(** The points node [i] starts from: its own points (leaf) or its children's
    skeleton points. *)
Definition node_pts (a : tarrays F) (pt_dim : Z) (js : Z -> list Z) (i : Z) : list Z :=
  if nch a i =? 0 then let s := val 0 (ld (a_cluster a) (i * 2)) in zrange s (s + npts a i)
  else flat_map (fun k => js (chd a pt_dim i k)) (zrange 0 (nch a i)).

(** Centre of node i's box in dimension d, and point p relative to it (the
    coordinates after the first pt_dim ones are not positions). *)
Definition centre (a : tarrays F) (pt_dim i d : Z) : F :=
  nadd (val (nlit 0%Q) (ld (a_box a) (i * 2 * pt_dim + d))) (nmul (nlit (1 # 2)%Q) (val (nlit 0%Q) (ld (a_box a) (i * 2 * pt_dim + (pt_dim + d))))).
Definition centred (a : tarrays F) (pt_dim xpt_dim n_point : Z) (coord : mem F) (i p : Z) : list F :=
  map (fun d => let x := val (nlit 0%Q) (ld coord (d * n_point + p)) in if d <? pt_dim then nsub x (centre a pt_dim i d) else x) (zrange 0 xpt_dim).

(** The proxy points of a level. *)
Definition n_proxy (pp : list (dmat F)) (l : Z) : Z := match getz pp l with Some m => dm_ncol m | None => 0 end.
Definition proxy_pt (xpt_dim : Z) (pp : list (dmat F)) (l j : Z) : list F :=
  match getz pp l with
  | Some m => map (fun d => val (nlit 0%Q) (ld (dm_data m) (d * dm_ncol m + j))) (zrange 0 xpt_dim)
  | None => []
  end.

(** The kernel matrix of the points [ps] of node i against the proxy points of its
    level. *)
Definition proxy_block (kern : list F -> list F -> Z -> Z -> E) (c : uctx F E) (ps : list Z) (i r q : Z) : E :=
  kern (centred (c_t c) (c_ptdim c) (c_dim c) (c_npoint c) (c_coord c) i (nthz ps (r / c_kdim c)))
       (proxy_pt (c_dim c) (c_pp c) (lev (c_t c) i) (q / c_kdim c)) (r mod c_kdim c) (q mod c_kdim c).

(** The arguments the construction needs: a cluster tree with its boxes, all
    coordinates, and proxy points for every level that is compressed. *)
Record uj_input (c : uctx F E) (n_node max_level n_leaf minlevel : Z) : Prop := {
  ui_dims : 1 <= c_ptdim c <= c_dim c /\ 1 <= c_kdim c /\ 1 <= minlevel;
  ui_tree : cluster_tree (c_ptdim c) (c_npoint c) n_node max_level n_leaf (c_t c);
  ui_box : forall i k, 0 <= i < n_node -> 0 <= k < c_ptdim c * 2 -> exists v, ld (a_box (c_t c)) (i * (c_ptdim c * 2) + k) = Some v;
  ui_coord : zlen (c_coord c) = c_npoint c * c_dim c /\ forall k, 0 <= k < c_npoint c * c_dim c -> exists v, ld (c_coord c) k = Some v;
  ui_pp : forall l, minlevel <= l <= max_level -> exists m, getz (c_pp c) l = Some m /\ 0 <= dm_ncol m /\
    forall d j, 0 <= d < c_dim c -> 0 <= j < dm_ncol m -> exists v, ld (dm_data m) (d * dm_ncol m + j) = Some v
}.

(** A thread's buffer: the recorded sizes are the allocated ones. *)
Definition tbuf_ok (b : tbuf F E) : Prop := dm_ok (tb_mat0 b) /\ dm_ok (tb_mat1 b) /\ exists l, iv_holds (tb_idx0 b) l.

(** The order in which the nodes were finished, and by which thread, in a
    history of the task queue. *)
Fixpoint finish_order (tr : list event) : list (Z * Z) :=
  match tr with
  | [] => []
  | FinCall i t :: tr' => finish_order tr' ++ [(Z.of_nat i, t)]
  | _ :: tr' => finish_order tr'
  end.

(** [evs] is what a team of [n_thread] threads did that processed the nodes
    taken from the queue of the dependency matrix (src, dst) until some thread
    found it empty and all of them had finished. *)
Definition queue_schedule (n_node n_thread : Z) (src dst : list Z) (evs : list (Z * Z)) : Prop :=
  exists g q s, initialised n_node src dst g q /\ reach g q s /\
    (exists i, In (GotNone i) (s_trace s)) /\ (forall i, ~ in_get s i) /\ s_held s = [] /\
    evs = finish_order (s_trace s) /\ forall t i, In (t, i) evs -> 0 <= t < n_thread.

(** Result for node i: a skeleton [sk] of its block with interpolation matrix
    [u], of which [V] is a copy; its points [js i] are those at positions sk.  [Q]:
    what else holds of node, points, skeleton and matrix. *)
Definition basis_of (c : uctx F E) (js : Z -> list Z) (i : Z) (V : dmat E) (Q : Z -> list Z -> list Z -> (Z -> Z -> E) -> Prop) : Prop :=
  let ps := node_pts (c_t c) (c_ptdim c) js i in
  exists sk u, js i = map (nthz ps) sk /\ dm_holds V (zlen ps * c_kdim c) (zlen sk * c_kdim c) u /\ skeleton_of (c_kdim c) (zlen ps) sk u /\ Q i ps sk u.
End Spec.

(** How the construction is run: a team of n_thread threads with buffers [tb]
    takes nodes from the queue built for the cut at minlevel; [evs]: the nodes
    with the threads that processed them, in order of completion. *)
Definition uj_team {F : num} {E : fnum} (c : uctx F E) (n_node minlevel n_thread : Z) (tb : list (tbuf F E)) (evs : list (Z * Z)) : Prop :=
  (exists src dst, upward_dag n_node minlevel (a_level (c_t c)) (a_parent (c_t c)) = Some (src, dst) /\ queue_schedule n_node n_thread src dst evs) /\
  zlen tb = n_thread /\ forall t b, getz tb t = Some b -> tbuf_ok b.

(** At some time a node is left without skeleton points. *)
Definition empty_skeleton {F : num} {E : fnum} (kern : list F -> list F -> Z -> Z -> E) (c : uctx F E) (n_node : Z) (tb : list (tbuf F E)) (evs : list (Z * Z)) : Prop :=
  exists pre post s v i, evs = pre ++ post /\
    Conc.run (map (fun ev => uj_node kern c (fst ev) (snd ev)) pre) (UST (arr n_node None) (arr n_node None) (arr n_node None) tb) = Some s /\
    In i (map snd pre) /\ getz (u_J s) i = Some (Some v) /\ iv_len v = 0.

(** Two results with the same contents. *)
Definition same_mat {A : Type} (m m' : dmat A) : Prop :=
  dm_nrow m = dm_nrow m' /\ dm_ncol m = dm_ncol m' /\
  forall r q, 0 <= r < dm_nrow m -> 0 <= q < dm_ncol m -> ld (dm_data m) (r * dm_ld m + q) = ld (dm_data m') (r * dm_ld m' + q).

(** ** Over the reals *)

(** What the tolerance promises of node i, whose points [ps] are interpolated by
    [u] from those at the positions sk: the residual on the proxy points is
    orthogonal to the skeleton, and under the tolerance for every point (with a
    prescribed rank: if that was not used up). *)
Definition accurate {F : num} (kern : list F -> list F -> Z -> Z -> R) (c : uctx F Rnum) (i : Z) (ps sk : list Z) (u : Z -> Z -> R) : Prop :=
  let kdim := c_kdim c in let n := zlen ps * kdim in let m := n_proxy (c_pp c) (lev (c_t c) i) * kdim in
  let a : Z -> Z -> R := @proxy_block F Rnum kern c ps i in
  (forall r, 0 <= r < n -> orthogonal_to_skeleton kdim m sk a u r) /\
  forall mu, max_norm kdim (zlen ps) m a mu -> forall j, 0 <= j < zlen ps ->
    match c_stop c with QR_RANK q => zlen sk < Z.min (Z.min m n / kdim) (Z.quot q kdim) | _ => True end ->
    (grp_norm kdim m (resid kdim sk a u) j < tolerance (c_dbl c) (c_stop c) kdim m mu)%R.

(** The proxy points see every point: the kernel block of a single point against
    the proxy points of a node that owns it is not below the tolerance. *)
Definition visible {F : num} (kern : list F -> list F -> Z -> Z -> R) (c : uctx F Rnum) (n_node minlevel : Z) : Prop :=
  match c_stop c with QR_RANK q => c_kdim c <= q | _ => True end /\
  forall i p, 0 <= i < n_node -> minlevel <= lev (c_t c) i -> owns (c_t c) i p = true ->
    let m := n_proxy (c_pp c) (lev (c_t c) i) * c_kdim c in
    let g := grp_norm (c_kdim c) m (@proxy_block F Rnum kern c [p] i) 0 in
    (0 < g)%R /\ (tolerance (c_dbl c) (c_stop c) (c_kdim c) m g <= g)%R.
