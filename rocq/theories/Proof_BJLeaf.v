(** The leaves of a built handle, in the order of the points. *)
From Coq Require Import ZArith List Lia Bool Permutation.
From Verif Require Import Base Mem Num CRing Model_Utils Model_Dense Model_Partition Spec_Tree Spec_Partition Model_Pairs Model_Matvec Spec_Matvec Model_Build Spec_Utils Spec_Build Proof_Utils Proof_BuildFill Proof_BuildTop.
Import ListNotations.
Open Scope Z_scope.

Ltac inv_bind H v E := match type of H with bind ?e _ = Some _ => destruct e as [v|] eqn:E; [cbn [bind] in H|discriminate H] end.

(** D_nrow of the leaves. *)
Lemma D_nrow_leaf kdim n_node n_leaf nt ntask ew leaves cluster pairs ord v0 v1 dm w0 w1 :
  gen_D_metadata kdim n_node n_leaf nt ntask ew leaves cluster pairs ord v0 v1 = Some (dm, w0, w1) ->
  forall k nd s e, 0 <= k < n_leaf -> ld leaves k = Some nd -> ld cluster (2 * nd) = Some s -> ld cluster (2 * nd + 1) = Some e ->
    ld (bm_nrow dm) k = Some ((e - s + 1) * kdim).
Proof.
  unfold gen_D_metadata. cbv zeta. intros H. inv_bind H ptr E0. inv_bind H s1 E1. inv_bind H s2 E2.
  assert (R : bm_nrow dm = d_nrow s2).
  { repeat match type of H with bind ?e _ = _ => destruct e as [?|]; [cbn [bind] in H|discriminate] | (let '(_, _) := ?p in _) = _ => destruct p end. injection H as <- _ _. reflexivity. }
  clear H. intros k nd s e Hk Hn Hs He. rewrite R.
  pose (Q := fun i (x : dst) => forall k nd s e, 0 <= k < n_leaf -> k < i -> ld leaves k = Some nd -> ld cluster (2 * nd) = Some s -> ld cluster (2 * nd + 1) = Some e -> ld (d_nrow x) k = Some ((e - s + 1) * kdim)).
  assert (Q1 : Q n_leaf s1).
  { refine (zfor_inv_partial Q 0 n_leaf _ _ _ E1 ltac:(lia) _ _); [intros ? ? ? ? ? ?; lia|].
    intros i x x' Hi HQ Hx. unfold D_leaf_item in Hx. inv_bind Hx nd' F1. inv_bind Hx s' F2. inv_bind Hx e' F3. cbv zeta in Hx. inv_bind Hx nr F4. inv_bind Hx nc F5. inv_bind Hx pt F6. injection Hx as <-. cbn [d_nrow].
    intros k' nd2 s2' e2 Hk' Hlt A1 A2 A3. cbn [d_nrow]. rewrite (ld_st _ _ _ _ _ F4). destruct (Z.eqb_spec i k') as [<-|Ne].
    - rewrite F1 in A1. injection A1 as <-. rewrite F2 in A2. rewrite F3 in A3. congruence.
    - apply (HQ k' nd2 s2' e2); auto. lia. }
  pose (Q2 := fun (i : Z) (x : dst) => Q n_leaf x).
  assert (Q3 : Q2 (zlen pairs) s2).
  { refine (zfor_inv_partial Q2 0 (zlen pairs) _ _ _ E2 (zlen_nonneg pairs) Q1 _).
    intros i x x' Hi HQ Hx. unfold D_pair_item in Hx. cbv zeta in Hx. inv_bind Hx pr F1. destruct pr as [n0 n1]. inv_bind Hx a0 F2. inv_bind Hx a1 F3. inv_bind Hx b0 F4. inv_bind Hx b1 F5. inv_bind Hx nr F6. inv_bind Hx nc F7. inv_bind Hx pt F8. injection Hx as <-.
    intros k' nd2 s2' e2 Hk' Hlt A1 A2 A3. cbn [d_nrow]. rewrite (ld_st _ _ _ _ _ F6). destruct (Z.eqb_spec (i + n_leaf) k'); [lia|]. apply (HQ k' nd2 s2' e2); auto. }
  apply (Q3 k nd s e); auto; lia.
Qed.

Section Leaf.
Context {F : num}.
Variables (pt_dim n_point : Z) (t : tree_result F).
Notation a := (r_arrays t).
Notation n_node := (r_n_node t).
Notation n_leaf := (r_n_leaf t).
Hypothesis Hn : 1 <= n_point.
Hypothesis Hlv : 0 <= r_max_level t.
Hypothesis CT : cluster_tree pt_dim n_point n_node (r_max_level t) n_leaf a.

Lemma leaf_seq : 1 <= n_leaf /\
  (forall k, 0 <= k < n_leaf -> ld (a_height_nodes a) k = Some (lf t k) /\ 0 <= lf t k < n_node /\ ld (a_height a) (lf t k) = Some 0) /\
  (forall i j, 0 <= i < j -> j < n_leaf -> lf t i < lf t j) /\
  (forall i, 0 <= i < n_node -> ld (a_height a) i = Some 0 -> exists k, 0 <= k < n_leaf /\ lf t k = i).
Proof.
  destruct (ct_heights _ _ _ _ _ _ CT 0 ltac:(lia)) as (ns & C & Le & L & I & S). rewrite (ct_nleaf _ _ _ _ _ _ CT) in C. injection C as C.
  assert (G : forall k, 0 <= k < n_leaf -> getz ns k = Some (lf t k)).
  { intros k Hk. destruct (getz_in ns k ltac:(lia)) as [x Ex]. unfold lf. specialize (L k ltac:(lia)). rewrite Z.mul_0_l, Z.add_0_l in L. rewrite L, Ex. reflexivity. }
  split; [|split; [|split]].
  - destruct (ct_leaf_of_point _ _ _ _ _ _ CT 0 ltac:(lia)) as (i & (Hi & s & e & lv & (_ & _ & _ & Dh & _) & _) & _).
    assert (In i ns) as Hin by (apply I; auto). apply In_getz in Hin as (k & Hk). apply getz_range in Hk. lia.
  - intros k Hk. pose proof (G k Hk) as Gk. specialize (L k ltac:(lia)). rewrite Z.mul_0_l, Z.add_0_l in L. split; [congruence|]. apply (I (lf t k)). eapply getz_In; eauto.
  - intros i j Hi Hj. apply (S i j); auto; apply G; lia.
  - intros i Hi Hh. assert (In i ns) as Hin by (apply I; auto). apply In_getz in Hin as (k & Hk). pose proof (getz_range _ _ _ Hk). exists k. split; [lia|]. rewrite G in Hk by lia. congruence.
Qed.
Notation LS k := (cs t (lf t k)).
Notation LE k := (ce t (lf t k)).
Lemma leaf_data k : 0 <= k < n_leaf -> exists lv, node_data a (lf t k) (LS k) (LE k) lv 0 0 /\ 0 <= LS k <= LE k /\ LE k < n_point.
Proof.
  intros Hk. destruct leaf_seq as (_ & L & _). destruct (L k Hk) as (_ & R & H0). destruct (ct_node _ _ _ _ _ _ CT (lf t k) R) as (s & e & lv & h & nc & D & B1 & B2 & _ & _ & _ & B3).
  pose proof D as (D1 & D2 & D3 & D4 & D5). rewrite H0 in D4. injection D4 as <-. assert (nc = 0) by (apply B3; auto). subst nc.
  assert (Es : LS k = s) by (unfold cs; rewrite Z.add_0_r in D1; rewrite D1; reflexivity). assert (Ee : LE k = e) by (unfold ce; rewrite D2; reflexivity). rewrite Es, Ee. exists lv. auto.
Qed.
(** Leaves do not share points. *)
Lemma leaf_uniq i j q : 0 <= i < n_leaf -> 0 <= j < n_leaf -> LS i <= q <= LE i -> LS j <= q <= LE j -> lf t i = lf t j.
Proof.
  intros Hi Hj Qi Qj. destruct leaf_seq as (_ & L & _). destruct (leaf_data i Hi) as (l1 & D1 & A1 & B1). destruct (leaf_data j Hj) as (l2 & D2 & A2 & B2).
  destruct (ct_leaf_of_point _ _ _ _ _ _ CT q ltac:(lia)) as (z & _ & U). rewrite (U (lf t i)), (U (lf t j)); auto; (split; [apply L; auto|]; eauto 6).
Qed.
Lemma leaf_before i j : 0 <= i < j -> j < n_leaf -> LE i < LS j.
Proof.
  intros Hi Hj. destruct leaf_seq as (_ & L & S & _). pose proof (S i j Hi Hj) as Lt.
  destruct (leaf_data i ltac:(lia)) as (l1 & D1 & A1 & B1). destruct (leaf_data j ltac:(lia)) as (l2 & D2 & A2 & B2).
  destruct (ct_postorder _ _ _ _ _ _ CT (lf t i) (lf t j) _ _ _ _ _ _ _ _ _ _ ltac:(destruct (L i ltac:(lia)) as (_ & ? & _); lia) ltac:(apply L; lia) D1 D2); auto.
  exfalso. assert (lf t i = lf t j) by (apply (leaf_uniq i j (LS i)); lia). lia.
Qed.
Lemma leaf_of q : 0 <= q < n_point -> exists k, 0 <= k < n_leaf /\ LS k <= q <= LE k.
Proof.
  intros Hq. destruct leaf_seq as (_ & _ & _ & A). destruct (ct_leaf_of_point _ _ _ _ _ _ CT q Hq) as (i & (Hi & s & e & lv & D & Hs) & _).
  destruct (A i Hi) as (k & Hk & E); [apply D|]. exists k. split; auto. rewrite E. destruct D as (D1 & D2 & _). unfold cs, ce. rewrite Z.add_0_r in D1. rewrite D1, D2. exact Hs.
Qed.
Lemma leaf_first : LS 0 = 0.
Proof.
  destruct leaf_seq as (N1 & _). destruct (leaf_of 0 ltac:(lia)) as (k & Hk & Q). destruct (leaf_data 0 ltac:(lia)) as (_ & _ & A & _).
  destruct (Z.eq_dec k 0) as [->|Ne]; [lia|]. pose proof (leaf_before 0 k ltac:(lia) ltac:(lia)). lia.
Qed.
Lemma leaf_next k : 0 <= k -> k + 1 < n_leaf -> LS (k + 1) = LE k + 1.
Proof.
  intros Hk Hk1. pose proof (leaf_before k (k + 1) ltac:(lia) Hk1) as B. destruct (leaf_data (k + 1) ltac:(lia)) as (_ & _ & A & A').
  destruct (leaf_of (LE k + 1) ltac:(destruct (leaf_data k ltac:(lia)) as (_ & _ & ? & _); lia)) as (m & Hm & Q).
  destruct (Z.lt_total m (k + 1)) as [L|[->|L]]; [|lia|].
  - destruct (Z.eq_dec m k) as [->|]; [lia|]. pose proof (leaf_before m k ltac:(lia) ltac:(lia)). destruct (leaf_data k ltac:(lia)) as (_ & _ & ? & _). lia.
  - pose proof (leaf_before (k + 1) m ltac:(lia) ltac:(lia)). lia.
Qed.
Lemma leaf_last : LE (n_leaf - 1) = n_point - 1.
Proof.
  destruct leaf_seq as (N1 & _). destruct (leaf_of (n_point - 1) ltac:(lia)) as (k & Hk & Q). destruct (leaf_data (n_leaf - 1) ltac:(lia)) as (_ & _ & A & A').
  destruct (Z.eq_dec k (n_leaf - 1)) as [->|Ne]; [lia|]. pose proof (leaf_before k (n_leaf - 1) ltac:(lia) ltac:(lia)). lia.
Qed.
(** The rows of the leaves before leaf k. *)
Lemma leaf_displ kdim k : 1 <= kdim -> 0 <= k <= n_leaf -> zsumf (fun i => npts a (lf t i) * kdim) 0 k = (if k <? n_leaf then LS k else n_point) * kdim.
Proof.
  intros Hd Hk. destruct leaf_seq as (N1 & _). pattern k. apply (Zlt_0_ind (fun k => k <= n_leaf -> zsumf (fun i => npts a (lf t i) * kdim) 0 k = (if k <? n_leaf then LS k else n_point) * kdim)); [|lia|lia].
  intros x IH Hx Hl. destruct (Z.eq_dec x 0) as [->|Ne]. { rewrite zsumf_empty by lia. destruct (Z.ltb_spec 0 n_leaf); [|lia]. rewrite leaf_first. lia. }
  replace x with (x - 1 + 1) at 1 by lia. rewrite zsumf_snoc by lia. rewrite IH by lia. rewrite npts_cs. destruct (Z.ltb_spec (x - 1) n_leaf); [|lia].
  destruct (Z.ltb_spec x n_leaf).
  - pose proof (leaf_next (x - 1) ltac:(lia) ltac:(lia)) as E. replace (x - 1 + 1) with x in E by lia. rewrite E. lia.
  - replace x with n_leaf in * by lia. rewrite leaf_last. lia.
Qed.
End Leaf.
