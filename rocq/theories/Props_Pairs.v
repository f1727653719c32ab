(** C17, C18, C33 (and C06 again): the block partition of the matrix. *)
From Coq Require Import ZArith QArith List Lia Bool.
From Verif Require Import Base Mem Num Model_Partition Spec_Tree Spec_Partition Proof_UpwardDag Model_Pairs Spec_Pairs Proof_Pairs Proof_PairsTop Proof_PairsPer Model_DagQueue Spec_DagQueue Props_Partition.
Import ListNotations.
Open Scope Z_scope.

(** C17.  For every partitioned point set and every threshold (ALPHA_H2 and
    ALPHA_HSS included): computing the pairs performs no undefined access and
    terminates, and each unordered pair of points is covered by exactly one
    listed pair, except points of the same leaf, which are covered by none. *)
Theorem C17_every_entry_covered_once :
  forall (F : num) fuel rnd pt_dim xpt_dim n_point (coord0 : mem F) max_leaf_points max_leaf_size root_enbox t alpha depth,
    points_ok pt_dim xpt_dim n_point coord0 root_enbox ->
    build_tree fuel rnd pt_dim xpt_dim n_point coord0 max_leaf_points max_leaf_size root_enbox = Some (Some t) ->
    2 * r_n_node t <= Z.of_nat depth ->
    exists ps, calc_reduced_adm_pairs depth pt_dim alpha 0 (r_n_node t) (r_max_level t) (r_arrays t) = Some ps /\
      forall p q, 0 <= p < n_point -> 0 <= q < n_point ->
        let cov l := coverage (r_arrays t) l p q + coverage (r_arrays t) l q p in
        (same_leaf (r_arrays t) (r_n_node t) p q /\ cov (ps_adm ps) = 0 /\ cov (ps_inadm ps) = 0) \/
        (~ same_leaf (r_arrays t) (r_n_node t) p q /\
          (cov (ps_adm ps) = 1 /\ cov (ps_inadm ps) = 0 \/ cov (ps_adm ps) = 0 /\ cov (ps_inadm ps) = 1)).
Proof.
  intros F fuel rnd pt_dim xpt_dim n_point coord0 mlp mls rbox t alpha depth Hok E Hd.
  destruct (boxes_of_tree _ _ _ _ _ _ _ _ _ _ Hok E) as (CT & BX).
  destruct (pairs_spec pt_dim n_point _ _ _ _ CT (proj1 (proj1 Hok)) BX alpha depth Hd) as (evs & ps & Ep & _ & Ea & Ei & _ & C0 & C1 & _).
  exists ps. split; [auto|]. intros p q Hp Hq. cbv zeta. rewrite Ea, Ei.
  pose proof (coverage_split (r_arrays t) evs p q) as S1. pose proof (coverage_split (r_arrays t) evs q p) as S2.
  assert (NN : forall l x y, 0 <= coverage (r_arrays t) l x y) by (intros; apply zcount_nonneg).
  pose proof (NN (map snd (filter fst evs)) p q). pose proof (NN (map snd (filter fst evs)) q p).
  pose proof (NN (map snd (filter (fun ev => negb (fst ev)) evs)) p q). pose proof (NN (map snd (filter (fun ev => negb (fst ev)) evs)) q p).
  destruct (same_leaf_em pt_dim n_point _ _ _ _ CT p q Hp) as [SL|SL].
  - left. split; [auto|]. specialize (C0 p q Hp Hq SL). lia.
  - right. split; [auto|]. specialize (C1 p q Hp Hq SL). lia.
Qed.
Print Assumptions C17_every_entry_covered_once.

(** C18.  Which pairs are listed where, and the minimal admissible level. *)
Theorem C18_pairs_classified :
  forall (F : num) fuel rnd pt_dim xpt_dim n_point (coord0 : mem F) max_leaf_points max_leaf_size root_enbox t alpha depth ps,
    points_ok pt_dim xpt_dim n_point coord0 root_enbox ->
    build_tree fuel rnd pt_dim xpt_dim n_point coord0 max_leaf_points max_leaf_size root_enbox = Some (Some t) ->
    2 * r_n_node t <= Z.of_nat depth ->
    calc_reduced_adm_pairs depth pt_dim alpha 0 (r_n_node t) (r_max_level t) (r_arrays t) = Some ps ->
    (forall n0 n1, In (n0, n1) (ps_adm ps) ->
       0 <= n0 < r_n_node t /\ 0 <= n1 < r_n_node t /\ boxes_admissible pt_dim alpha (r_arrays t) n0 n1 /\
       levels_fit (r_arrays t) n0 n1 /\ (forall p, owns (r_arrays t) n0 p && owns (r_arrays t) n1 p = false) /\
       exists l0 l1, ld (a_level (r_arrays t)) n0 = Some l0 /\ ld (a_level (r_arrays t)) n1 = Some l1 /\ ps_min_level ps <= Z.max l0 l1) /\
    (forall n0 n1, In (n0, n1) (ps_inadm ps) ->
       0 <= n0 < r_n_node t /\ 0 <= n1 < r_n_node t /\ n0 <> n1 /\
       is_leaf (r_arrays t) n0 /\ is_leaf (r_arrays t) n1 /\ ~ boxes_admissible pt_dim alpha (r_arrays t) n0 n1) /\
    (ps_min_level ps = r_max_level t \/
     exists n0 n1 l0 l1, In (n0, n1) (ps_adm ps) /\ ld (a_level (r_arrays t)) n0 = Some l0 /\ ld (a_level (r_arrays t)) n1 = Some l1 /\ ps_min_level ps = Z.max l0 l1).
Proof.
  intros F fuel rnd pt_dim xpt_dim n_point coord0 mlp mls rbox t alpha depth ps Hok E Hd Ep.
  destruct (boxes_of_tree _ _ _ _ _ _ _ _ _ _ Hok E) as (CT & BX).
  destruct (pairs_spec pt_dim n_point _ _ _ _ CT (proj1 (proj1 Hok)) BX alpha depth Hd) as (evs & ps' & Ep' & _ & Ea & Ei & Ev & _ & _ & L1 & L2 & L3).
  assert (ps' = ps) by congruence. subst ps'.
  assert (T : forall n0 n1 b, 0 <= n0 < r_n_node t -> 0 <= n1 < r_n_node t -> adm_test pt_dim alpha 0 (r_arrays t) n0 n1 = Some b -> (b = true <-> boxes_admissible pt_dim alpha (r_arrays t) n0 n1)).
  { intros n0 n1 b H0 H1 Eb. destruct (adm_test_spec pt_dim n_point _ _ _ _ CT (proj1 (proj1 Hok)) BX alpha n0 n1 H0 H1) as (b' & Eb' & Hb). assert (b' = b) by congruence. subst. auto. }
  split; [|split; [|auto]].
  - intros n0 n1 Hin. pose proof Hin as Hin'. rewrite Ea in Hin. apply in_map_iff in Hin as ([b x] & Hx & Hin). cbn [snd] in Hx. subst x. apply filter_In in Hin as [Hin Hb]. cbn [fst] in Hb. subst b.
    destruct (Ev _ Hin) as (V0 & V1 & V2 & V3 & _ & V5). destruct (V2) as (l0 & l1 & E0 & E1 & _).
    split; [auto|]. split; [auto|]. split; [eapply T; eauto|]. split; [auto|]. split; [apply V5; auto|].
    exists l0, l1. split; [auto|]. split; [auto|]. eapply L2; eauto.
  - intros n0 n1 Hin. rewrite Ei in Hin. apply in_map_iff in Hin as ([b x] & Hx & Hin). cbn [snd] in Hx. subst x. apply filter_In in Hin as [Hin Hb]. destruct b; [discriminate|].
    destruct (Ev _ Hin) as (V0 & V1 & V2 & V3 & V4 & V5). destruct (V4 eq_refl) as [? ?].
    split; [auto|]. split; [auto|]. split; [eapply disjoint_ne; eauto|]. split; [auto|]. split; [auto|].
    intros Ha. apply (proj2 (T _ _ _ V0 V1 V3)) in Ha. discriminate.
Qed.
Print Assumptions C18_pairs_classified.

(** C18.  No pair is listed twice, in either order or in both lists. *)
Theorem C18_no_pair_twice :
  forall (F : num) fuel rnd pt_dim xpt_dim n_point (coord0 : mem F) max_leaf_points max_leaf_size root_enbox t alpha depth ps,
    points_ok pt_dim xpt_dim n_point coord0 root_enbox ->
    build_tree fuel rnd pt_dim xpt_dim n_point coord0 max_leaf_points max_leaf_size root_enbox = Some (Some t) ->
    2 * r_n_node t <= Z.of_nat depth ->
    calc_reduced_adm_pairs depth pt_dim alpha 0 (r_n_node t) (r_max_level t) (r_arrays t) = Some ps ->
    forall i j n0 n1 m0 m1, getz (ps_adm ps ++ ps_inadm ps) i = Some (n0, n1) -> getz (ps_adm ps ++ ps_inadm ps) j = Some (m0, m1) ->
      (m0, m1) = (n0, n1) \/ (m0, m1) = (n1, n0) -> i = j.
Proof.
  intros F fuel rnd pt_dim xpt_dim n_point coord0 mlp mls rbox t alpha depth ps Hok E Hd Ep i j n0 n1 m0 m1 Gi Gj Hm.
  destruct (C17_every_entry_covered_once _ _ _ _ _ _ _ _ _ _ _ alpha depth Hok E Hd) as (ps' & Ep' & C). assert (ps' = ps) by congruence. subst ps'.
  destruct (C18_pairs_classified _ _ _ _ _ _ _ _ _ _ _ _ _ _ Hok E Hd Ep) as (P1 & P2 & _).
  destruct (boxes_of_tree _ _ _ _ _ _ _ _ _ _ Hok E) as (CT & _).
  assert (R : 0 <= n0 < r_n_node t /\ 0 <= n1 < r_n_node t).
  { apply getz_In in Gi. apply in_app_or in Gi as [Hin|Hin]; [specialize (P1 _ _ Hin)|specialize (P2 _ _ Hin)]; tauto. }
  destruct R as [R0 R1].
  destruct (ct_node _ _ _ _ _ _ CT n0 R0) as (s & e & l0 & h & nc & D0 & S0 & N0 & _).
  destruct (ct_node _ _ _ _ _ _ CT n1 R1) as (s' & e' & l1 & h' & nc' & D1 & S1 & N1 & _).
  assert (O0 : owns (r_arrays t) n0 s = true) by (rewrite (owns_data _ _ _ _ _ _ _ _ D0); lia).
  assert (O1 : owns (r_arrays t) n1 s' = true) by (rewrite (owns_data _ _ _ _ _ _ _ _ D1); lia).
  set (f := fun '(x, y) => (owns (r_arrays t) x s && owns (r_arrays t) y s')).
  set (g := fun '(x, y) => (owns (r_arrays t) x s' && owns (r_arrays t) y s)).
  assert (CC : zcount f (ps_adm ps ++ ps_inadm ps) + zcount g (ps_adm ps ++ ps_inadm ps) <= 1).
  { rewrite !zcount_app. destruct (C s s' ltac:(lia) ltac:(lia)) as [X|X]; cbv zeta in X; unfold coverage in X; fold f g in X; lia. }
  assert (Pos : forall (h : Z * Z -> bool) l k x, getz l k = Some x -> h x = true -> 1 <= zcount h l).
  { intros hh l k x G Hx. apply getz_In in G. pose proof (zcount_nonneg hh l). destruct (Z.eq_dec (zcount hh l) 0) as [Z0|]; [|lia].
    rewrite zcount_zero in Z0. rewrite (Z0 x G) in Hx. discriminate. }
  assert (Two : forall l k k' x y, k < k' -> getz l k = Some x -> getz l k' = Some y -> (f x = true \/ g x = true) -> (f y = true \/ g y = true) -> 2 <= zcount f l + zcount g l).
  { clear - Pos. induction l as [|z l IH]; intros k k' x y Hk G G' Hx Hy. { apply getz_range in G. change (zlen (@nil (Z * Z))) with 0 in G. lia. }
    rewrite !zcount_cons. pose proof (getz_range _ _ _ G). pose proof (getz_range _ _ _ G'). rewrite zlen_cons in *. pose proof (zcount_nonneg f l). pose proof (zcount_nonneg g l).
    rewrite getz_cons in G' by lia. destruct (Z.eq_dec k 0) as [->|].
    - injection G as ->. assert (1 <= zcount f l + zcount g l). { destruct Hy as [Hy|Hy]; pose proof (Pos _ _ _ _ G' Hy); lia. }
      destruct Hx as [->| ->]; destruct (f x), (g x); lia.
    - rewrite getz_cons in G by lia. specialize (IH (k - 1) (k' - 1) x y ltac:(lia) G G' Hx Hy). destruct (f z), (g z); lia. }
  assert (Fi : f (n0, n1) = true) by (unfold f; now rewrite O0, O1).
  assert (Fj : f (m0, m1) = true \/ g (m0, m1) = true). { destruct Hm as [->| ->]; [now left|right]. unfold g. now rewrite O0, O1. }
  destruct (Z_lt_le_dec i j) as [L|L]; [|destruct (Z_lt_le_dec j i) as [L'|L']; [|lia]].
  - pose proof (Two _ _ _ _ _ L Gi Gj (or_introl Fi) Fj). lia.
  - pose proof (Two _ _ _ _ _ L' Gj Gi Fj (or_introl Fi)). lia.
Qed.
Print Assumptions C18_no_pair_twice.

(** C06.  The graph actually handed to the queue, for every partition tree of
    more than one node. *)
Theorem C06_graph_of_partition :
  forall (F : num) fuel rnd pt_dim xpt_dim n_point (coord0 : mem F) max_leaf_points max_leaf_size root_enbox t alpha depth ps,
    points_ok pt_dim xpt_dim n_point coord0 root_enbox ->
    build_tree fuel rnd pt_dim xpt_dim n_point coord0 max_leaf_points max_leaf_size root_enbox = Some (Some t) ->
    2 * r_n_node t <= Z.of_nat depth -> 2 <= r_n_node t ->
    calc_reduced_adm_pairs depth pt_dim alpha 0 (r_n_node t) (r_max_level t) (r_arrays t) = Some ps ->
    1 <= ps_min_level ps <= r_max_level t /\
    exists src dst, upward_dag (r_n_node t) (ps_min_level ps) (a_level (r_arrays t)) (a_parent (r_arrays t)) = Some (src, dst) /\
      wf_dag (r_n_node t) src dst /\ drainable (r_n_node t) src dst /\
      (forall i lv p, 0 <= i < r_n_node t -> ld (a_level (r_arrays t)) i = Some lv -> ld (a_parent (r_arrays t)) i = Some p ->
         ps_min_level ps <= lv -> relies_on (r_n_node t) src dst p i) /\
      (forall i lv, 0 <= i < r_n_node t -> ld (a_level (r_arrays t)) i = Some lv -> (skipped (r_n_node t) src dst i <-> lv < ps_min_level ps)).
Proof.
  intros F fuel rnd pt_dim xpt_dim n_point coord0 mlp mls rbox t alpha depth ps Hok E Hd Hn Ep.
  destruct (boxes_of_tree _ _ _ _ _ _ _ _ _ _ Hok E) as (CT & BX).
  destruct (pairs_spec pt_dim n_point _ _ _ _ CT (proj1 (proj1 Hok)) BX alpha depth Hd) as (evs & ps' & Ep' & _ & Ea & Ei & Ev & _ & _ & L1 & L2 & L3).
  assert (ps' = ps) by congruence. subst ps'.
  assert (H1 : 1 <= ps_min_level ps).
  { destruct L3 as [->|(n0 & n1 & l0 & l1 & Hin & E0 & E1 & ->)].
    - apply (max_level_pos _ _ _ _ _ _ CT (proj1 (proj1 Hok)) Hn).
    - rewrite Ea in Hin. apply in_map_iff in Hin as ([b x] & Hx & Hin). cbn [snd] in Hx. subst x. apply filter_In in Hin as [Hin Hb].
      destruct (Ev _ Hin) as (V0 & V1 & _ & _ & _ & V5). destruct (not_root _ _ _ _ _ _ CT n0 n1 V0 V1 (V5 eq_refl)) as [X0 _].
      destruct (level_pos _ _ _ _ _ _ CT (proj1 (proj1 Hok)) n0 ltac:(lia)) as (l & El & Hl). assert (l = l0) by congruence. lia. }
  split; [lia|]. eapply upward_dag_spec; eauto.
Qed.
Print Assumptions C06_graph_of_partition.

(** C06.  The periodic variant: accepted for every tree, one node included. *)
Theorem C06_periodic_graph :
  forall (F : num) pt_dim n_point n_node max_level n_leaf (a : tarrays F),
    cluster_tree pt_dim n_point n_node max_level n_leaf a ->
    exists src dst, upward_dag_per n_node (a_level a) (a_parent a) = Some (src, dst) /\
      wf_dag n_node src dst /\ drainable n_node src dst /\
      (forall i p, 0 <= i < n_node - 1 -> ld (a_parent a) i = Some p -> relies_on n_node src dst p i) /\
      (forall i, ~ skipped n_node src dst i).
Proof. intros. eapply upward_dag_per_spec; eauto. Qed.
Print Assumptions C06_periodic_graph.

(** C33.  Periodic systems of up to four dimensions (the size of the local
    arrays): for every lattice with a non-zero shift every ordered pair of points
    is covered exactly once; with zero shift every ordered pair of points from
    different leaves.  [lat] is the lattice recorded with a pair. *)
Theorem C33_periodic_coverage :
  forall (F : num) fuel rnd pt_dim xpt_dim n_point (coord0 : mem F) max_leaf_points max_leaf_size root_enbox t alpha depth n_lattice lattices,
    points_ok pt_dim xpt_dim n_point coord0 root_enbox -> pt_dim <= 4 ->
    build_tree fuel rnd pt_dim xpt_dim n_point coord0 max_leaf_points max_leaf_size root_enbox = Some (Some t) ->
    2 * r_n_node t <= Z.of_nat depth -> 0 <= n_lattice -> filled lattices (n_lattice * pt_dim) ->
    exists ts, all_pairs_per depth pt_dim alpha n_lattice lattices (r_n_node t) (r_arrays t) = Some ts /\
      forall l shift, 0 <= l < n_lattice -> is_lattice_shift pt_dim lattices (r_n_node t) (r_arrays t) l shift ->
        (forall p q, 0 <= p < n_point -> 0 <= q < n_point ->
           (shifted pt_dim shift -> coverage_per (r_arrays t) ts l p q = 1) /\
           (~ shifted pt_dim shift -> same_leaf (r_arrays t) (r_n_node t) p q -> coverage_per (r_arrays t) ts l p q = 0) /\
           (~ shifted pt_dim shift -> ~ same_leaf (r_arrays t) (r_n_node t) p q -> coverage_per (r_arrays t) ts l p q = 1)) /\
        (forall adm n0 n1, In (adm, (n0, n1, l)) ts ->
           0 <= n0 < r_n_node t /\ 0 <= n1 < r_n_node t /\ levels_fit (r_arrays t) n0 n1 /\
           (adm = false -> is_leaf (r_arrays t) n0 /\ is_leaf (r_arrays t) n1) /\
           exists x y, ((x, y) = (n0, n1) \/ (~ shifted pt_dim shift /\ (x, y) = (n1, n0))) /\
             (adm = true <-> boxes_admissible_shifted pt_dim alpha shift (r_arrays t) x y)).
Proof.
  intros F fuel rnd pt_dim xpt_dim n_point coord0 mlp mls rbox t alpha depth nl lats Hok H4 E Hd Hnl Hlat.
  destruct (boxes_of_tree _ _ _ _ _ _ _ _ _ _ Hok E) as (CT & BX). pose proof (proj1 (proj1 Hok)) as Hpd.
  destruct (all_pairs_spec pt_dim n_point _ _ _ _ CT (conj Hpd H4) BX nl lats Hnl Hlat alpha depth Hd) as (ts & Et & T1 & T2).
  exists ts. split; [auto|]. intros l shift Hl Hsh.
  assert (SH : forall j, 0 <= j < pt_dim -> lshift pt_dim (r_n_node t) (r_arrays t) lats l j = shift j).
  { intros j Hj. destruct (Hsh j Hj) as (w & v & E1 & E2 & ->). destruct (lshift_is pt_dim n_point _ _ _ _ CT (conj Hpd H4) BX nl lats Hlat l Hl j Hj) as (w' & v' & E1' & E2' & ->).
    congruence. }
  assert (S1 : shifted pt_dim (lshift pt_dim (r_n_node t) (r_arrays t) lats l) <-> shifted pt_dim shift).
  { unfold shifted. split; intros (j & Hj & X); exists j; (split; [auto|]); rewrite SH in * by auto; auto. }
  assert (S2 : forall x y, boxes_admissible_shifted pt_dim alpha (lshift pt_dim (r_n_node t) (r_arrays t) lats l) (r_arrays t) x y <-> boxes_admissible_shifted pt_dim alpha shift (r_arrays t) x y).
  { unfold boxes_admissible_shifted. intros x y. split; intros (j & c0 & w0 & c1 & w1 & Hj & X1 & X2 & X3 & X4 & X5); exists j, c0, w0, c1, w1; rewrite SH in * by auto; auto 10. }
  split.
  - intros p q Hp Hq. destruct (T2 l p q Hl Hp Hq) as (X1 & X2 & X3). rewrite S1 in *. auto.
  - intros adm n0 n1 Hin. destruct (T1 _ Hin) as (l' & Hl' & Hk). destruct Hk as (<- & V0 & V1 & V2 & V3 & x & y & V4 & V5).
    split; [auto|]. split; [auto|]. split; [auto|]. split; [auto|]. exists x, y. rewrite <- S1, <- S2. auto.
Qed.
Print Assumptions C33_periodic_coverage.

(** C33.  The pair arrays and shift arrays handed to the matvec list these
    triples in order, each with the shift of its lattice. *)
Theorem C33_periodic_arrays :
  forall (F : num) fuel rnd pt_dim xpt_dim n_point (coord0 : mem F) max_leaf_points max_leaf_size root_enbox t alpha depth n_lattice lattices ts,
    points_ok pt_dim xpt_dim n_point coord0 root_enbox -> pt_dim <= 4 ->
    build_tree fuel rnd pt_dim xpt_dim n_point coord0 max_leaf_points max_leaf_size root_enbox = Some (Some t) ->
    2 * r_n_node t <= Z.of_nat depth -> 0 <= n_lattice -> filled lattices (n_lattice * pt_dim) ->
    all_pairs_per depth pt_dim alpha n_lattice lattices (r_n_node t) (r_arrays t) = Some ts ->
    exists adm inadm, pairs_of_periodic depth pt_dim alpha n_lattice lattices (r_n_node t) (r_arrays t) = Some (adm, inadm) /\
      forall (kind : bool) prs shifts, (prs, shifts) = (if kind then adm else inadm) ->
      let mine := map snd (filter (fun tr => Bool.eqb (fst tr) kind) ts) in
      zlen prs = zlen mine * 2 /\ zlen shifts = zlen mine * pt_dim /\
      forall i n0 n1 l, getz mine i = Some (n0, n1, l) ->
        ld prs (i * 2 + 0) = Some n0 /\ ld prs (i * 2 + 1) = Some n1 /\
        exists shift, is_lattice_shift pt_dim lattices (r_n_node t) (r_arrays t) l shift /\
          forall j, 0 <= j < pt_dim -> ld shifts (i * pt_dim + j) = Some (shift j).
Proof.
  intros F fuel rnd pt_dim xpt_dim n_point coord0 mlp mls rbox t alpha depth nl lats ts Hok H4 E Hd Hnl Hlat Et.
  destruct (boxes_of_tree _ _ _ _ _ _ _ _ _ _ Hok E) as (CT & BX). pose proof (proj1 (proj1 Hok)) as Hpd.
  destruct (all_pairs_spec pt_dim n_point _ _ _ _ CT (conj Hpd H4) BX nl lats Hnl Hlat alpha depth Hd) as (ts' & Et' & T1 & _).
  assert (ts' = ts) by congruence. subst ts'.
  assert (R : forall f n0 n1 l, In (n0, n1, l) (map snd (filter f ts)) -> 0 <= l < nl).
  { intros f n0 n1 l Hin. apply in_map_iff in Hin as ([b x] & Hx & Hin). cbn [snd] in Hx. subst x. apply filter_In in Hin as [Hin _].
    destruct (T1 _ Hin) as (l' & Hl' & Hk). destruct Hk as (<- & _). auto. }
  assert (Fe : forall kind, filter (fun tr : bool * (Z * Z * Z) => Bool.eqb (fst tr) kind) ts = filter (if kind then fst else fun tr => negb (fst tr)) ts).
  { intros kind. apply filter_ext. intros [[] x]; destruct kind; reflexivity. }
  destruct (unpack_spec pt_dim n_point _ _ _ _ CT (conj Hpd H4) BX nl lats Hlat (map snd (filter (fun t => negb (fst t)) ts)) (R _)) as (ip & is & Ei & I1 & I2 & I3).
  destruct (unpack_spec pt_dim n_point _ _ _ _ CT (conj Hpd H4) BX nl lats Hlat (map snd (filter fst ts)) (R _)) as (ap & as' & Ea & A1 & A2 & A3).
  exists (ap, as'), (ip, is). unfold pairs_of_periodic. rewrite Et. cbn [bind]. rewrite Ei. cbn [bind]. rewrite Ea. cbn [bind]. split; [auto|].
  intros kind prs shifts Hk. cbv zeta. rewrite Fe.
  destruct kind; injection Hk as -> ->; (split; [auto|]); (split; [auto|]); intros i n0 n1 l G.
  - destruct (A3 _ _ _ _ G) as (X1 & X2 & X3). split; [auto|]. split; [auto|]. exists (lshift pt_dim (r_n_node t) (r_arrays t) lats l). split; [|auto].
    eapply lshift_is; eauto. eapply R. eapply getz_In. eauto.
  - destruct (I3 _ _ _ _ G) as (X1 & X2 & X3). split; [auto|]. split; [auto|]. exists (lshift pt_dim (r_n_node t) (r_arrays t) lats l). split; [|auto].
    eapply lshift_is; eauto. eapply R. eapply getz_In. eauto.
Qed.
Print Assumptions C33_periodic_arrays.

(** *** HSS mode: H2P_HSS_calc_adm_inadm_pairs asserts that the minimal
    admissible level is 1 (H2Pack_partition.c:520).  Not so for every input. *)
Definition rnd3 (_ : Z) : Qred_num := (1#3)%Q.
Definition ALPHA_H2 : Qred_num := (999999 # 1000000)%Q.    (* H2Pack_config.h *)
Definition ALPHA_HSS : Qred_num := (-1 # 1000000)%Q.

(** Three points within 2e-8 of each other: sibling boxes are not HSS
    admissible, since the 2e-12 safety margin of the boxes outweighs 1e-6 times
    their width, and the assertion fails. *)
Definition tiny : mem Qred_num := map Some ([0; 1 # 200000000; 1 # 50000000])%Q.
Theorem C18_HSS_level_refuted :
  points_ok 1 1 3 tiny None /\
  match build_tree 60 rnd3 1 1 3 tiny 1 (0%Q : Qred_num) None with
  | Some (Some t) =>
    match calc_reduced_adm_pairs 20 1 ALPHA_HSS 0 (r_n_node t) (r_max_level t) (r_arrays t) with
    | Some ps => 2 * r_n_node t <= 20 /\ ps_min_level ps <> 1
    | None => False end
  | _ => False end.
Proof.
  split.
  - split; [lia|]. split; [lia|]. split; [|exact I]. split; [reflexivity|]. intros k Hk.
    assert (k = 0 \/ k = 1 \/ k = 2) as [->|[->| ->]] by lia; eexists; reflexivity.
  - vm_compute. split; discriminate.
Qed.
Print Assumptions C18_HSS_level_refuted.

(** A caller-supplied root box whose points lie in one half: level 1 has a single
    node, so no pair is on level 1. *)
Definition half : mem Qred_num := map Some ([0; 1 # 8; 1 # 4; 3 # 8])%Q.
Definition half_box : mem Qred_num := map Some ([0; 1])%Q.
Theorem C18_HSS_level_one_child_refuted :
  points_ok 1 1 4 half (Some half_box) /\
  match build_tree 60 rnd3 1 1 4 half 1 (0%Q : Qred_num) (Some half_box) with
  | Some (Some t) =>
    match calc_reduced_adm_pairs 20 1 ALPHA_HSS 0 (r_n_node t) (r_max_level t) (r_arrays t) with
    | Some ps => 2 * r_n_node t <= 20 /\ ps_min_level ps = 2
    | None => False end
  | _ => False end.
Proof.
  assert (P : points_ok 1 1 4 half (Some half_box)).
  { split; [lia|]. split; [lia|]. split; split; try reflexivity; intros k Hk.
    - assert (k = 0 \/ k = 1 \/ k = 2 \/ k = 3) as [->|[->|[->| ->]]] by lia; eexists; reflexivity.
    - assert (k = 0 \/ k = 1) as [->| ->] by lia; eexists; reflexivity. }
  split; [auto|]. vm_compute. split; [discriminate|reflexivity].
Qed.
Print Assumptions C18_HSS_level_one_child_refuted.

(** *** Non-vacuity: eight points on a line. *)
Definition line8 : mem Qred_num := map Some ([0; 1#8; 1#4; 3#8; 1#2; 5#8; 3#4; 7#8])%Q.
Definition lin_tree := build_tree 10 rnd3 1 1 8 line8 1 (0%Q : Qred_num) None.
Example line_ok : points_ok 1 1 8 line8 None.
Proof.
  split; [lia|]. split; [lia|]. split; [|exact I]. split; [reflexivity|]. intros k Hk.
  assert (k = 0 \/ k = 1 \/ k = 2 \/ k = 3 \/ k = 4 \/ k = 5 \/ k = 6 \/ k = 7) by lia.
  repeat (destruct H as [->|H]; [eexists; reflexivity|]). subst. eexists; reflexivity.
Qed.
Example line_pairs : match lin_tree with
  | Some (Some t) => r_n_node t = 15 /\ r_max_level t = 3 /\
     match calc_reduced_adm_pairs 30 1 ALPHA_H2 0 (r_n_node t) (r_max_level t) (r_arrays t) with
     | Some ps => ps_adm ps = [(0, 3); (0, 4); (1, 4); (7, 10); (7, 11); (8, 11); (2, 9); (2, 12); (3, 7); (3, 8); (4, 8); (5, 12)] /\ zlen (ps_inadm ps) = 7 /\ ps_min_level ps = 2
     | None => False end
  | _ => False end.
Proof. vm_compute. repeat split. Qed.
Example line_periodic : match lin_tree with
  | Some (Some t) =>
     match pairs_of_periodic 30 1 ALPHA_H2 3 (map Some ([0; 1; -1])%Q : mem Qred_num) (r_n_node t) (r_arrays t) with
     | Some ((ap, _), (ip, _)) => zlen ap = 84 /\ zlen ip = 32
     | None => False end
  | _ => False end.
Proof. vm_compute. repeat split. Qed.
