(** C13 - C16 and C06: partitioning of the points, cluster tree, dependency
    graph of the upward sweep. *)
From Coq Require Import ZArith QArith Qabs Lqa List Lia Bool Permutation.
From Verif Require Import Base Mem Num Model_Partition Spec_Tree Spec_Partition Proof_Partition Proof_RootBox Proof_BuildTree Proof_Terminate Model_DagQueue Spec_DagQueue Proof_DagQueueTop Proof_UpwardDag.
Import ListNotations.
Open Scope Z_scope.

(** C13.  For every arithmetic, every point set and every recursion depth:
    partitioning performs no undefined access, and when it returns the points
    are a permutation of the input. *)
Theorem C13_partition_permutes_points :
  forall (F : num) fuel rnd pt_dim xpt_dim n_point (coord0 : mem F) max_leaf_points max_leaf_size root_enbox,
    points_ok pt_dim xpt_dim n_point coord0 root_enbox ->
    exists r, build_tree fuel rnd pt_dim xpt_dim n_point coord0 max_leaf_points max_leaf_size root_enbox = Some r /\
      forall t, r = Some t -> reordered xpt_dim n_point coord0 (r_coord t) (r_idx t).
Proof.
  intros. destruct (build_tree_spec fuel rnd pt_dim xpt_dim n_point coord0 max_leaf_points max_leaf_size root_enbox H (fun _ _ => True)) as (r & E & Hr); auto.
  exists r. split; auto. intros t Et. now destruct (Hr t Et).
Qed.
Print Assumptions C13_partition_permutes_points.

(** C14.  Whatever the arithmetic, the arrays describe a cluster tree. *)
Theorem C14_cluster_tree :
  forall (F : num) fuel rnd pt_dim xpt_dim n_point (coord0 : mem F) max_leaf_points max_leaf_size root_enbox t,
    points_ok pt_dim xpt_dim n_point coord0 root_enbox ->
    build_tree fuel rnd pt_dim xpt_dim n_point coord0 max_leaf_points max_leaf_size root_enbox = Some (Some t) ->
    cluster_tree pt_dim n_point (r_n_node t) (r_max_level t) (r_n_leaf t) (r_arrays t).
Proof.
  intros. destruct (build_tree_spec fuel rnd pt_dim xpt_dim n_point coord0 max_leaf_points max_leaf_size root_enbox H (fun _ _ => True)) as (r & E & Hr); auto.
  apply (Hr t). congruence.
Qed.
Print Assumptions C14_cluster_tree.

(** C15.  In exact arithmetic every point lies in the box of each node that
    owns it. *)
Theorem C15_points_in_boxes :
  forall fuel rnd pt_dim xpt_dim n_point (coord0 : mem Qnum) max_leaf_points max_leaf_size root_enbox t,
    points_ok pt_dim xpt_dim n_point coord0 root_enbox -> box_given_ok pt_dim n_point coord0 root_enbox ->
    build_tree fuel rnd pt_dim xpt_dim n_point coord0 max_leaf_points max_leaf_size root_enbox = Some (Some t) ->
    boxes_contain pt_dim n_point (r_n_node t) (r_coord t) (r_arrays t).
Proof.
  intros fuel rnd pt_dim xpt_dim n_point coord0 mlp mls rbox t Hok Hgiven E. pose proof Hok as ([H1 H2] & H3 & Hc0 & Hrb).
  destruct (build_tree_spec fuel rnd pt_dim xpt_dim n_point coord0 mlp mls rbox Hok (inboxQ pt_dim)) as (r & E' & Hr).
  - apply inboxQ_ext.
  - intros b b' x _ _. apply inboxQ_sub; auto.
  - intros coord b Hc Hcc Hb q Hq. destruct rbox as [b'|].
    + subst b'. intros j Hj. destruct (Hgiven q j Hq Hj) as (c & w & x & E1 & E2 & E3 & L1 & L2).
      assert (Ex : ptof coord n_point q j = x). { unfold ptof, vd. rewrite Hcc by nia. rewrite E3. reflexivity. }
      unfold vd. rewrite E1, E2, Ex. auto.
    + destruct (root_boxQ pt_dim xpt_dim n_point coord rnd H1 H2 H3 Hc) as (b' & Eb & _ & X). assert (b = b') by congruence. subst. auto.
  - destruct (Hr t ltac:(congruence)) as (_ & CT & _ & K). intros i s e lv h nc q j Hi D Hq Hj.
    destruct (K i s e lv h nc Hi D) as (bx & Ib & Eb & Hin). destruct (Hin q Hq) as [Hq1 Hc]. destruct (Hq1 j Hj) as [L1 L2].
    exists (vd bx j), (vd bx (pt_dim + j)), (ptof (r_coord t) n_point q j).
    unfold corner, boxwidth. rewrite !Eb by lia.
    split; [apply (@box_vd Qnum pt_dim); auto; lia|]. split; [apply (@box_vd Qnum pt_dim); auto; lia|].
    assert (0 <= s <= e /\ e < n_point) as (? & ?).
    { destruct (ct_node _ _ _ _ _ _ CT i Hi) as (s' & e' & lv' & h' & nc' & (D1 & D2 & _) & X). destruct D as (D1' & D2' & _).
      assert (s = s') by congruence. assert (e = e') by congruence. subst. lia. }
    split; [apply (@coord_vd Qnum xpt_dim n_point 0 n_point); auto; lia|]. auto.
Qed.
Print Assumptions C15_points_in_boxes.

(** C16.  A node is a leaf exactly when it has at most max_leaf_points points or
    its box is at most max_leaf_size wide. *)
Theorem C16_leaf_rule :
  forall (F : num) fuel rnd pt_dim xpt_dim n_point (coord0 : mem F) max_leaf_points max_leaf_size root_enbox t,
    points_ok pt_dim xpt_dim n_point coord0 root_enbox ->
    build_tree fuel rnd pt_dim xpt_dim n_point coord0 max_leaf_points max_leaf_size root_enbox = Some (Some t) ->
    leaf_rule pt_dim max_leaf_points max_leaf_size (r_n_node t) (r_arrays t).
Proof.
  intros. destruct (build_tree_spec fuel rnd pt_dim xpt_dim n_point coord0 max_leaf_points max_leaf_size root_enbox H (fun _ _ => True)) as (r & E & Hr); auto.
  apply (Hr t). congruence.
Qed.
Print Assumptions C16_leaf_rule.

(** C16.  Termination, any arithmetic: if [k] halvings bring the width of the
    root box down to max_leaf_size, the recursion is at most [k+1] deep. *)
Theorem C16_terminates_when_halving_reaches_limit :
  forall (F : num) k rnd pt_dim xpt_dim n_point (coord0 : mem F) max_leaf_points max_leaf_size root_enbox,
    points_ok pt_dim xpt_dim n_point coord0 root_enbox ->
    (forall b, match root_enbox with Some b' => b = b' | None => root_box rnd coord0 n_point 0 (n_point - 1) pt_dim = Some b end ->
       exists w, ld b pt_dim = Some w /\ nle (halved k w) max_leaf_size = true) ->
    forall fuel, (k < fuel)%nat -> exists t, build_tree fuel rnd pt_dim xpt_dim n_point coord0 max_leaf_points max_leaf_size root_enbox = Some (Some t).
Proof. intros. eapply term_gen; eauto. Qed.
Print Assumptions C16_terminates_when_halving_reaches_limit.

(** C16.  Exact arithmetic: termination for every size limit above 4e-12. *)
Theorem C16_terminates_with_size_limit :
  forall rnd pt_dim xpt_dim n_point (coord0 : mem Qnum) max_leaf_points (max_leaf_size : Q) root_enbox,
    points_ok pt_dim xpt_dim n_point coord0 root_enbox -> (4 # 1000000000000 < max_leaf_size)%Q ->
    exists depth, forall fuel, (depth <= fuel)%nat ->
      exists t, build_tree fuel rnd pt_dim xpt_dim n_point coord0 max_leaf_points max_leaf_size root_enbox = Some (Some t).
Proof. intros. apply term_size; auto. Qed.
Print Assumptions C16_terminates_with_size_limit.

(** C16.  Exact arithmetic: without a size limit it terminates if no
    max_leaf_points + 1 points are all within 4e-12 of each other. *)
Theorem C16_terminates_for_spread_points :
  forall rnd pt_dim xpt_dim n_point (coord0 : mem Qnum) max_leaf_points (max_leaf_size d : Q) root_enbox,
    points_ok pt_dim xpt_dim n_point coord0 root_enbox -> box_given_ok pt_dim n_point coord0 root_enbox ->
    (4 # 1000000000000 < d)%Q -> spread pt_dim n_point (leaf_points pt_dim max_leaf_points) d coord0 ->
    exists depth, forall fuel, (depth <= fuel)%nat ->
      exists t, build_tree fuel rnd pt_dim xpt_dim n_point coord0 max_leaf_points max_leaf_size root_enbox = Some (Some t).
Proof. intros. eapply term_spread2; eauto; apply H. Qed.
Print Assumptions C16_terminates_for_spread_points.

(** C16.  Otherwise it need not: more than max_leaf_points points at the same
    place are never separated, so without a size limit above 4e-12 the recursion
    exceeds every depth. *)
Theorem C16_unconditional_termination_refuted :
  forall rnd pt_dim xpt_dim n_point (coord0 : mem Qnum) max_leaf_points (max_leaf_size : Q),
    points_ok pt_dim xpt_dim n_point coord0 None -> (max_leaf_size < 4 # 1000000000000)%Q ->
    leaf_points pt_dim max_leaf_points < n_point ->
    (forall q j, 0 <= q < n_point -> 0 <= j < pt_dim -> ld coord0 (j * n_point + q) = ld coord0 (j * n_point + 0)) ->
    forall fuel, build_tree fuel rnd pt_dim xpt_dim n_point coord0 max_leaf_points max_leaf_size None = Some None.
Proof. intros. eapply coincident_diverges; eauto; apply H. Qed.
Print Assumptions C16_unconditional_termination_refuted.

(** C06.  The graph built from a cluster tree, when the minimal admissible level
    is at least 1, satisfies the queue's preconditions, the queue can drain it,
    each compressed node's parent waits for it, and exactly the nodes above the
    minimal admissible level are skipped. *)
Theorem C06_upward_dag :
  forall (F : num) pt_dim n_point n_node max_level n_leaf (a : tarrays F) min_adm_level,
    cluster_tree pt_dim n_point n_node max_level n_leaf a -> 1 <= min_adm_level ->
    exists src dst, upward_dag n_node min_adm_level (a_level a) (a_parent a) = Some (src, dst) /\
      wf_dag n_node src dst /\ drainable n_node src dst /\
      (forall i lv p, 0 <= i < n_node -> ld (a_level a) i = Some lv -> ld (a_parent a) i = Some p -> min_adm_level <= lv ->
         relies_on n_node src dst p i) /\
      (forall i lv, 0 <= i < n_node -> ld (a_level a) i = Some lv -> (skipped n_node src dst i <-> lv < min_adm_level)).
Proof. intros. eapply upward_dag_spec; eauto. Qed.
Print Assumptions C06_upward_dag.

(** C06.  Consequence with C01: in any interleaving the upward sweep gets a
    node only after all its compressed children were finished. *)
Theorem C06_children_before_parents :
  forall (F : num) pt_dim n_point n_node max_level n_leaf (a : tarrays F) min_adm_level src dst g q s post i t pre c lv,
    cluster_tree pt_dim n_point n_node max_level n_leaf a -> 1 <= min_adm_level ->
    upward_dag n_node min_adm_level (a_level a) (a_parent a) = Some (src, dst) ->
    initialised n_node src dst g q -> reach g q s ->
    s_trace s = post ++ Got i t :: pre ->
    0 <= c < n_node -> ld (a_parent a) c = Some t -> ld (a_level a) c = Some lv -> min_adm_level <= lv ->
    In c (fins pre).
Proof.
  intros F pt_dim n_point n_node max_level n_leaf a ml src dst g q s post i t pre c lv CT Hml E Hi Hr Ht Hc Ep El Hl.
  destruct (upward_dag_spec pt_dim n_point n_node max_level n_leaf a CT ml Hml) as (src' & dst' & E' & W & D & R & S).
  assert (src' = src /\ dst' = dst) as [-> ->] by (split; congruence).
  eapply top_order; eauto.
Qed.
Print Assumptions C06_children_before_parents.

(** C06.  A tree of one node: the graph is not accepted (index -1 is used). *)
Theorem C06_single_node_refuted :
  forall (F : num) pt_dim n_point n_leaf (a : tarrays F) junk1 junk2,
    cluster_tree pt_dim n_point 1 0 n_leaf a ->
    exists src dst, upward_dag 1 0 (a_level a) (a_parent a) = Some (src, dst) /\
      tq_init 1 (zlen dst) src dst junk1 junk2 = None.
Proof.
  intros F pt_dim n_point n_leaf a j1 j2 CT. destruct (ct_root _ _ _ _ _ _ CT) as (_ & Ep & nc & (_ & _ & El & _)).
  change (1 - 1) with 0 in *. exists [0; 1], [-1]. split; [|reflexivity].
  unfold upward_dag, zfor. simpl. rewrite El. simpl. rewrite Ep. reflexivity.
Qed.
Print Assumptions C06_single_node_refuted.

(** *** Non-vacuity: five points in the plane, two of them equal, at most two
    per leaf. *)
Definition exx : list Q := ([0; 1; 1; 3#4; 1#4])%Q.
Definition exy : list Q := ([0; 1; 1; 1#4; 1#2])%Q.
Definition ex_coord : mem Qnum := map Some (exx ++ exy).
Definition ex_rnd (_ : Z) : Qnum := (1#3)%Q.

Example ex_points_ok : points_ok 2 2 5 ex_coord None.
Proof.
  split; [lia|]. split; [lia|]. split; [|exact I]. split; [reflexivity|]. intros k Hk.
  assert (k = 0 \/ k = 1 \/ k = 2 \/ k = 3 \/ k = 4 \/ k = 5 \/ k = 6 \/ k = 7 \/ k = 8 \/ k = 9) by lia.
  repeat (destruct H as [->|H]; [eexists; reflexivity|]). subst. eexists; reflexivity.
Qed.

Definition ex_tree := build_tree 5 ex_rnd 2 2 5 ex_coord 2 (0%Q : Qnum) None.
Example ex_tree_ok : match ex_tree with
  | Some (Some t) => r_n_node t = 4 /\ r_n_leaf t = 3 /\ r_max_level t = 1 /\
      map (ld (r_idx t)) [0; 1; 2; 3; 4] = [Some 0; Some 4; Some 3; Some 1; Some 2]
  | _ => False end.
Proof. vm_compute. repeat split. Qed.

(** The same with a size limit and coincident points, for the termination
    theorems. *)
Example ex_spread : spread 2 5 2 (1#4) ex_coord.
Proof.
  intros l Nd Hr Hl.
  (* at most two of any three points are the points 1 and 2 *)
  destruct (existsb (fun q => (q =? 0) || (q =? 3) || (q =? 4)) l) eqn:Ex.
  - apply existsb_exists in Ex as (q0 & Hq0 & E0).
    assert (exists q1, In q1 l /\ q1 <> q0) as (q1 & Hq1 & Hne).
    { destruct l as [|a [|b l]]; try (unfold zlen in Hl; simpl in Hl; lia). inversion Nd; subst.
      destruct (Z.eq_dec a q0) as [->|]; [exists b|exists a]; simpl; split; auto. intros ->. apply H1. now left. }
    pose proof (Hr q0 Hq0). pose proof (Hr q1 Hq1).
    assert (exists q q' j (x x' : Q), In q [q0; q1] /\ In q' [q0; q1] /\ 0 <= j < 2 /\ ld ex_coord (j * 5 + q) = Some x /\ ld ex_coord (j * 5 + q') = Some x' /\ (x + (1#4) <= x')%Q) as (q & q' & j & x & x' & A & B & C).
    { assert (Hq0' : q0 = 0 \/ q0 = 3 \/ q0 = 4) by lia.
      assert (Hq1' : q1 = 0 \/ q1 = 1 \/ q1 = 2 \/ q1 = 3 \/ q1 = 4) by lia.
      destruct Hq0' as [->|[->| ->]]; destruct Hq1' as [->|[->|[->|[->| ->]]]]; try congruence.
      1-4: exists 0; eexists _, 0; eexists _, _; split; [now left|]; split; [right; now left|]; split; [lia|]; split; [reflexivity|]; split; [reflexivity|]; vm_compute; congruence.
      1: exists 0, 3, 0.
      2-3: exists 3; eexists _, 0; eexists _, _; split; [now left|]; split; [right; now left|]; split; [lia|]; split; [reflexivity|]; split; [reflexivity|]; vm_compute; congruence.
      2: exists 4, 3, 0. 3: exists 0, 4, 0.
      4-6: exists 4; eexists _, 0; eexists _, _; split; [now left|]; split; [right; now left|]; split; [lia|]; split; [reflexivity|]; split; [reflexivity|]; vm_compute; congruence.
      all: eexists _, _; split; [simpl; auto|]; split; [simpl; auto|]; split; [lia|]; split; [reflexivity|]; split; [reflexivity|]; vm_compute; congruence. }
    exists q, q', j, x, x'. repeat split; try tauto.
    + destruct A as [<-|[<-|[]]]; auto. + destruct B as [<-|[<-|[]]]; auto.
  - exfalso. assert (Hin : incl l [1; 2]).
    { intros q Hq. pose proof (Hr q Hq). assert (((q =? 0) || (q =? 3) || (q =? 4)) = false).
      { apply not_true_iff_false. intros Ht. apply not_true_iff_false in Ex. apply Ex. apply existsb_exists. eauto. }
      simpl. lia. }
    apply NoDup_incl_length in Hin; auto. unfold zlen in Hl. simpl in Hin. lia.
Qed.

Example ex_coincident : points_ok 1 1 2 (map Some [1%Q; 1%Q] : mem Qnum) None /\
  forall fuel, build_tree fuel ex_rnd 1 1 2 (map Some [1%Q; 1%Q] : mem Qnum) 1 (0%Q : Qnum) None = Some None.
Proof.
  assert (H : points_ok 1 1 2 (map Some [1%Q; 1%Q] : mem Qnum) None).
  { split; [lia|]. split; [lia|]. split; [|exact I]. split; [reflexivity|]. intros k Hk.
    assert (k = 0 \/ k = 1) as [-> | ->] by lia; eexists; reflexivity. }
  split; auto. apply C16_unconditional_termination_refuted; auto; try reflexivity.
  - intros q j Hq Hj. assert (j = 0) by lia. subst. assert (q = 0 \/ q = 1) as [-> | ->] by lia; reflexivity.
Qed.

(** A one-node tree is reachable: one point. *)
Example ex_single : match build_tree 5 ex_rnd 1 1 1 (map Some [1%Q] : mem Qnum) 1 (0%Q : Qnum) None with
  | Some (Some t) => r_n_node t = 1 /\ r_max_level t = 0 | _ => False end.
Proof. vm_compute. split; reflexivity. Qed.
