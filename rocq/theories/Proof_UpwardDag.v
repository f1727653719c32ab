(** The dependency graph built from a cluster tree. *)
From Coq Require Import ZArith List Lia Bool.
From Verif Require Import Base Mem Num Model_Partition Spec_Tree Model_DagQueue Spec_DagQueue.
Import ListNotations.
Open Scope Z_scope.

Section Dag.
Context {F : num} (pt_dim n_point n_node max_level n_leaf : Z) (a : tarrays F).
Hypothesis CT : cluster_tree pt_dim n_point n_node max_level n_leaf a.
Context (ml : Z).
Hypothesis Hml : 1 <= ml.

Let lev i := match ld (a_level a) i with Some v => v | None => 0 end.
Let par i := match ld (a_parent a) i with Some v => v | None => 0 end.
Let dst i := if lev i <? ml then i else par i.

Lemma lev_ok i : 0 <= i < n_node -> ld (a_level a) i = Some (lev i).
Proof.
  intros Hi. destruct (ct_node _ _ _ _ _ _ CT i Hi) as (s & e & lv & h & nc & (_ & _ & E & _) & _). unfold lev. now rewrite E.
Qed.
Lemma par_ok i : 0 <= i < n_node -> ld (a_parent a) i = Some (par i).
Proof.
  intros Hi. destruct (Z.eq_dec i (n_node - 1)) as [->|].
  - destruct (ct_root _ _ _ _ _ _ CT) as (_ & E & _). unfold par. now rewrite E.
  - destruct (ct_parent _ _ _ _ _ _ CT i ltac:(lia)) as (p & nc & k & E & _). unfold par. now rewrite E.
Qed.
Lemma par_lt i : 0 <= i < n_node -> ml <= lev i -> i < par i < n_node.
Proof.
  intros Hi Hl. destruct (Z.eq_dec i (n_node - 1)) as [->|].
  - destruct (ct_root _ _ _ _ _ _ CT) as (_ & _ & nc & (_ & _ & E & _)). unfold lev in Hl. rewrite E in Hl. lia.
  - destruct (ct_parent _ _ _ _ _ _ CT i ltac:(lia)) as (p & nc & k & E & H & _). unfold par. now rewrite E.
Qed.
Lemma dst_ge i : 0 <= i < n_node -> i <= dst i < n_node.
Proof. intros Hi. unfold dst. destruct (Z.ltb_spec (lev i) ml); [lia|]. pose proof (par_lt i Hi). lia. Qed.

Lemma dag_build : upward_dag n_node ml (a_level a) (a_parent a) = Some (zrange 0 (n_node + 1), map dst (zrange 0 n_node)).
Proof.
  destruct (ct_root _ _ _ _ _ _ CT) as (Hn & _). unfold upward_dag.
  match goal with |- context [zfor 0 n_node ?b ?init] =>
    destruct (zfor_inv (fun k (x : list Z * list Z) => x = (zrange 0 k, map dst (zrange 0 k))) 0 n_node b init) as (x & E & P) end.
  - lia. - reflexivity.
  - intros i x Hi ->. rewrite lev_ok by auto. cbn [bind]. rewrite zrange_snoc, map_app by lia. cbn [map].
    assert (Ed : dst i = if lev i <? ml then i else par i) by reflexivity. rewrite Ed.
    destruct (lev i <? ml); [eexists; split; reflexivity|]. rewrite par_ok by auto. cbn [bind]. eexists; split; reflexivity.
  - subst x. rewrite E. cbn [bind]. rewrite <- zrange_snoc by lia. reflexivity.
Qed.

Let src := zrange 0 (n_node + 1).
Let ds := map dst (zrange 0 n_node).

Lemma getz_src i v : getz src i = Some v <-> 0 <= i <= n_node /\ v = i.
Proof.
  unfold src. destruct (ct_root _ _ _ _ _ _ CT) as (Hn & _). split.
  - intros E. pose proof (getz_range _ _ _ E) as R. rewrite zlen_zrange in R by lia. rewrite getz_zrange in E by lia. split; [lia|]. injection E. lia.
  - intros [H ->]. rewrite getz_zrange by lia. reflexivity.
Qed.
Lemma getz_ds i v : getz ds i = Some v <-> 0 <= i < n_node /\ v = dst i.
Proof.
  unfold ds. destruct (ct_root _ _ _ _ _ _ CT) as (Hn & _). rewrite getz_map. split.
  - destruct (getz (zrange 0 n_node) i) eqn:E; [|discriminate]. intros X; injection X as <-.
    pose proof (getz_range _ _ _ E) as R. rewrite zlen_zrange in R by lia. rewrite getz_zrange in E by lia. injection E as <-. split; [lia|reflexivity].
  - intros [H ->]. rewrite getz_zrange by lia. reflexivity.
Qed.

Lemma edge_iff i j d : edge_at n_node src ds i j d <-> 0 <= i < n_node /\ j = i /\ d = dst i.
Proof.
  unfold edge_at. split.
  - intros (Hi & (s & e & E1 & E2 & Hj) & E3). apply getz_src in E1 as [_ ->]. apply getz_src in E2 as [_ ->]. apply getz_ds in E3 as [Hj2 ->].
    assert (j = i) by lia. subst. auto.
  - intros (Hi & -> & ->). split; auto. split; [|apply getz_ds; auto]. exists i, (i + 1).
    split; [apply getz_src; lia|]. split; [apply getz_src; lia|]. lia.
Qed.

Lemma relies_iff d p : relies_on n_node src ds d p <-> 0 <= p < n_node /\ d = dst p.
Proof.
  unfold relies_on. split; [intros (j & E); apply edge_iff in E; tauto|]. intros [Hp ->]. exists p. apply edge_iff. auto.
Qed.

Lemma skipped_iff i : skipped n_node src ds i <-> 0 <= i < n_node /\ lev i < ml.
Proof.
  unfold skipped. rewrite relies_iff. split; intros [Hi H]; split; auto.
  - unfold dst in H. destruct (Z.ltb_spec (lev i) ml); auto. pose proof (par_lt i Hi ltac:(auto)). lia.
  - unfold dst. destruct (Z.ltb_spec (lev i) ml); lia.
Qed.

Lemma dag_wf : wf_dag n_node src ds.
Proof.
  destruct (ct_root _ _ _ _ _ _ CT) as (Hn & _). constructor.
  - lia. - unfold src. rewrite zlen_zrange; lia.
  - apply getz_src. lia. - apply getz_src. unfold ds. rewrite zlen_map, zlen_zrange; lia.
  - intros i s e Hi E1 E2. apply getz_src in E1, E2. lia.
  - intros j d E. apply getz_ds in E as [Hj ->]. pose proof (dst_ge j Hj). lia.
  - intros i j j' E1 E2. apply edge_iff in E1, E2. lia.
Qed.

Lemma dag_drain : drainable n_node src ds.
Proof.
  split.
  - exists Z.to_nat. intros d p H Hne. apply relies_iff in H as [Hp ->]. pose proof (dst_ge p Hp). lia.
  - intros d p H Hs. apply relies_iff in H as [Hp ->]. apply skipped_iff in Hs as Hs'. unfold dst. destruct (Z.ltb_spec (lev p) ml); [auto|lia].
Qed.

Theorem upward_dag_spec : exists src ds, upward_dag n_node ml (a_level a) (a_parent a) = Some (src, ds) /\ wf_dag n_node src ds /\ drainable n_node src ds /\
  (forall i lv p, 0 <= i < n_node -> ld (a_level a) i = Some lv -> ld (a_parent a) i = Some p -> ml <= lv -> relies_on n_node src ds p i) /\
  (forall i lv, 0 <= i < n_node -> ld (a_level a) i = Some lv -> (skipped n_node src ds i <-> lv < ml)).
Proof.
  exists src, ds. split; [apply dag_build|]. split; [apply dag_wf|]. split; [apply dag_drain|]. split.
  - intros i lv p Hi El Ep Hl. apply relies_iff. split; auto. rewrite lev_ok in El by auto. rewrite par_ok in Ep by auto. injection El as <-. injection Ep as <-.
    unfold dst. destruct (Z.ltb_spec (lev i) ml); [lia|auto].
  - intros i lv Hi El. rewrite skipped_iff. rewrite lev_ok in El by auto. injection El as <-. tauto.
Qed.
End Dag.
