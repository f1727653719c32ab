(** What it means that a stored handle has been restored (C28).  The stored
    handle is [h] with block tables; the remaining stored fields are [f].  What
    has been read is [r].  All comparisons are cell by cell on the arrays of the
    two handles. *)
From Coq Require Import ZArith QArith List Bool.
From Verif Require Import Base Mem Num CRing Conc Model_Utils Spec_Utils Model_Dense Spec_Dense Model_Partition Model_Matvec Spec_Matvec Model_Build Spec_Build Model_FileIO.
Import ListNotations.
Open Scope Z_scope.

Section Spec.
Context {F : num} {K : cring}.

Record restored (h : h2rep F K) (f : sfields F) (tol : F) (r : rfile F K) : Prop := {
  (* sizes and parameters *)
  rs_sizes : h_ptdim (rf_h r) = h_ptdim h /\ h_npoint (rf_h r) = h_npoint h /\ h_kdim (rf_h r) = h_kdim h /\ h_kms (rf_h r) = h_kms h /\
    h_nnode (rf_h r) = h_nnode h /\ h_maxchild (rf_h r) = h_maxchild h /\ h_nleaf (rf_h r) = h_nleaf h /\
    h_maxlevel (rf_h r) = h_maxlevel h /\ h_minlevel (rf_h r) = h_minlevel h;
  rs_params : rf_hss r = 0 /\ rf_root r = sf_root f /\ rf_mlp r = sf_mlp f /\ rf_tol r = tol;
  (* the tree *)
  rs_tree : forall i, 0 <= i < h_nnode h ->
    ld (a_level (h_t (rf_h r))) i = ld (a_level (h_t h)) i /\
    ld (a_nchild (h_t (rf_h r))) i = ld (a_nchild (h_t h)) i /\
    ld (a_cluster (h_t (rf_h r))) (i * 2) = ld (a_cluster (h_t h)) (i * 2) /\
    ld (a_cluster (h_t (rf_h r))) (i * 2 + 1) = ld (a_cluster (h_t h)) (i * 2 + 1) /\
    ld (h_mcl (rf_h r)) (i * 2) = ld (h_mcl h) (i * 2) /\
    ld (h_mcl (rf_h r)) (i * 2 + 1) = ld (h_mcl h) (i * 2 + 1) /\
    (forall k, 0 <= k < h_maxchild h -> ld (a_children (h_t (rf_h r))) (i * h_maxchild h + k) = ld (a_children (h_t h)) (i * h_maxchild h + k)) /\
    (* every parent but the root's *)
    (i < h_nnode h - 1 -> ld (a_parent (h_t (rf_h r))) i = ld (a_parent (h_t h)) i);
  rs_levels : forall l, 0 <= l <= h_maxlevel h ->
    ld (a_level_n (h_t (rf_h r))) l = ld (a_level_n (h_t h)) l /\
    forall n k, ld (a_level_n (h_t h)) l = Some n -> 0 <= k < n ->
      ld (a_level_nodes (h_t (rf_h r))) (l * h_nleaf h + k) = ld (a_level_nodes (h_t h)) (l * h_nleaf h + k);
  rs_leaves : forall k, 0 <= k < h_nleaf h -> ld (a_height_nodes (h_t (rf_h r))) k = ld (a_height_nodes (h_t h)) k;
  (* the points *)
  rs_points : (forall i, 0 <= i < h_npoint h -> ld (rf_idx r) i = ld (sf_idx f) i) /\
    forall j i, 0 <= j < h_ptdim h -> 0 <= i < h_npoint h -> ld (rf_coord r) (j * h_npoint h + i) = ld (sf_coord f) (j * h_npoint h + i);
  rs_perm : h_fwd (rf_h r) = h_fwd h /\ h_bwd (rf_h r) = h_bwd h;
  (* bases *)
  rs_U : zlen (h_U (rf_h r)) = h_nnode h /\ forall i U, getz (h_U h) i = Some U -> exists V, getz (h_U (rf_h r)) i = Some V /\
    dm_nrow V = dm_nrow U /\ dm_ncol V = dm_ncol U /\
    forall p c, 0 <= p < dm_nrow U -> 0 <= c < dm_ncol U -> ld (dm_data V) (p * dm_ld V + c) = ld (dm_data U) (p * dm_ld U + c);
  (* skeletons: the indices, and the coordinates of these points *)
  rs_J : zlen (rf_J r) = h_nnode h /\ forall i v, getz (sf_J f) i = Some v -> exists w, getz (rf_J r) i = Some (Some w) /\
    iv_len w = iv_len v /\ forall k, 0 <= k < iv_len v -> ld (iv_data w) k = ld (iv_data v) k;
  rs_Jc : zlen (rf_Jc r) = h_nnode h /\ forall i v, getz (sf_J f) i = Some v -> exists m, getz (rf_Jc r) i = Some (Some m) /\ dm_ncol m = iv_len v /\
    forall d k p, 0 <= d < h_ptdim h -> 0 <= k < iv_len v -> ld (iv_data v) k = Some p ->
      ld (dm_data m) (d * dm_ld m + k) = ld (sf_coord f) (d * h_npoint h + p);
  (* pairs and blocks *)
  rs_pairs : h_adm (rf_h r) = h_adm h /\ h_inadm (rf_h r) = h_inadm h;
  rs_B : forall k, 0 <= k < zlen (h_adm h) -> Bnrow (rf_h r) k = Bnrow h k /\ Bncol (rf_h r) k = Bncol h k /\
    forall i j, 0 <= i < Bnrow h k -> 0 <= j < Bncol h k -> Bval (rf_h r) k i j = Bval h k i j;
  rs_D : forall k, 0 <= k < h_nleaf h + zlen (h_inadm h) -> Dnrow (rf_h r) k = Dnrow h k /\ Dncol (rf_h r) k = Dncol h k /\
    forall i j, 0 <= i < Dnrow h k -> 0 <= j < Dncol h k -> Dval (rf_h r) k i j = Dval h k i j;
  rs_slots : slots_ok (rf_bm r) (zlen (h_adm h)) (h_Bdata (rf_h r)) /\ slots_ok (rf_dm r) (h_nleaf h + zlen (h_inadm h)) (h_Ddata (rf_h r))
}.

(** Block look-up on the read handle ([eval] is not called: the blocks are
    stored). *)
Definition lookups_restored (h : h2rep F K) (r : rfile F K) : Prop :=
  forall (eval : Z -> Z -> mem K -> Z -> option (mem K)) out, dm_ok out ->
  (forall k n0 n1, getz (h_adm h) k = Some (n0, n1) ->
    (exists o, get_block eval (rf_bm r) (h_Bdata (rf_h r)) false n0 n1 out = Some (Some o) /\ block_view o false (Bnrow h k) (Bncol h k) (Bval h k)) /\
    (exists o, get_block eval (rf_bm r) (h_Bdata (rf_h r)) false n1 n0 out = Some (Some o) /\ block_view o true (Bnrow h k) (Bncol h k) (Bval h k))) /\
  (forall n0 n1, 0 <= n0 < h_nnode h -> ~ In (n0, n1) (h_adm h) -> ~ In (n1, n0) (h_adm h) ->
    get_block eval (rf_bm r) (h_Bdata (rf_h r)) false n0 n1 out = Some None) /\
  (forall k n0 n1, getz (h_inadm h) k = Some (n0, n1) ->
    (exists o, get_block eval (rf_dm r) (h_Ddata (rf_h r)) false n0 n1 out = Some (Some o) /\ block_view o false (msize h n0) (msize h n1) (Dval h (h_nleaf h + k))) /\
    (exists o, get_block eval (rf_dm r) (h_Ddata (rf_h r)) false n1 n0 out = Some (Some o) /\ block_view o true (msize h n0) (msize h n1) (Dval h (h_nleaf h + k)))) /\
  (forall k, 0 <= k < h_nleaf h ->
    exists o, get_block eval (rf_dm r) (h_Ddata (rf_h r)) false (leaf h k) (leaf h k) out = Some (Some o) /\ block_view o false (msize h (leaf h k)) (msize h (leaf h k)) (Dval h k)) /\
  (forall n0 n1, 0 <= n0 < h_nnode h -> ~ In (n0, n1) (h_inadm h) -> ~ In (n1, n0) (h_inadm h) -> ~ (n0 = n1 /\ exists k, 0 <= k < h_nleaf h /\ n0 = leaf h k) ->
    get_block eval (rf_dm r) (h_Ddata (rf_h r)) false n0 n1 out = Some None).
End Spec.
