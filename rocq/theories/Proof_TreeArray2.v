(** The arrays built from a proper tree form a cluster tree. *)
From Coq Require Import ZArith QArith List Lia Bool Permutation.
From Verif Require Import Base Mem Num Spec_Utils Proof_Utils Proof_Bucket Model_Partition Proof_Partition Proof_Bisect Spec_Tree Proof_TreeArray.
Import ListNotations.
Open Scope Z_scope.

Section Whole.
Context {F : num} (pt_dim n_point : Z).
Hypothesis Hd : 1 <= pt_dim.
Let mc := Z.shiftl 1 pt_dim.
Context (P : tnode F -> Prop).
Hypothesis HP : forall u, P u -> box_init pt_dim (t_box u).
Context (root : tnode F).
Hypothesis G : gt mc P 0 0 (n_point - 1) 0 root.

Let n_node := t_nnode root.
Let max_level := t_height root.
Let n_leaf := leaves root.

Lemma n_node_eq : zlen (flat root) = n_node.
Proof. apply (proj1 (flat_len mc P) _ _ _ _ _ G). Qed.

Lemma flat_at k u : getz (flat root) k = Some u -> t_po u = k.
Proof. intros E. rewrite (proj1 (flat_po mc P) _ _ _ _ _ G k u E). lia. Qed.

Lemma flat_in u : In u (flat root) -> getz (flat root) (t_po u) = Some u.
Proof. intros H. apply In_getz in H as [k E]. pose proof (flat_at k u E). congruence. Qed.

Lemma root_in : In root (flat root).
Proof. rewrite flat_eq. apply in_app_iff. right. now left. Qed.

Lemma root_po : t_po root = n_node - 1.
Proof. destruct (proj1 (gt_nnode mc P) _ _ _ _ _ G) as (_ & A & _). fold n_node in A. lia. Qed.

Lemma sub_closed : (forall lv s e po t, gt mc P lv s e po t -> forall u c, In u (flat t) -> In c (t_children u) -> In c (flat t)) /\
  (forall lv s e po ts, gts mc P lv s e po ts -> forall u c, In u (flats ts) -> In c (t_children u) -> In c (flats ts)).
Proof.
  apply gt_ind2.
  - intros lv s e po b _ _ u c [<-|[]] Hc. destruct Hc.
  - intros lv s e po b ts _ _ G' IH _ _ u c Hu Hc. rewrite flat_eq in *. cbn [t_children] in *. apply in_app_iff in Hu as [Hu|[<-|[]]]; apply in_app_iff; left; eauto.
    cbn [t_children] in Hc. now apply child_in_flats.
  - intros ? ? ? ? ? [].
  - intros lv s m e po t ts G1 IH1 G2 IH2 u c Hu Hc. unfold flats in *. cbn [flat_map] in *. apply in_app_iff in Hu as [Hu|Hu]; apply in_app_iff; eauto.
Qed.

Lemma gts_po_lt : forall lv s e po ts, gts mc P lv s e po ts -> forall k c, getz ts k = Some c -> po <= t_po c /\ forall k' c', k < k' -> getz ts k' = Some c' -> t_po c < t_po c'.
Proof.
  induction 1 as [lv s po|lv s m e po t ts G1 G2 IH]; intros k c E.
  - apply getz_range in E. zlia.
  - pose proof (proj1 (gt_nnode mc P) _ _ _ _ _ G1) as (N1 & N2 & _).
    assert (Hk : 0 <= k) by (apply getz_range in E; lia).
    destruct (Z.eq_dec k 0) as [->|Hn].
    + injection E as <-. split; [lia|]. intros k' c' Hk' E'. replace k' with (1 + (k' - 1)) in E' by lia. change (t :: ts) with ([t] ++ ts) in E'.
      rewrite getz_app2 in E' by (change (zlen [t]) with 1; lia). change (zlen [t]) with 1 in E'. destruct (IH _ _ E'). lia.
    + change (t :: ts) with ([t] ++ ts) in E. rewrite getz_app2 in E by (change (zlen [t]) with 1; lia). change (zlen [t]) with 1 in E.
      destruct (IH _ _ E) as [I1 I2]. split; [lia|]. intros k' c' Hk' E'. apply (I2 (k' - 1)); [lia|].
      change (t :: ts) with ([t] ++ ts) in E'. now rewrite getz_app2 in E' by (change (zlen [t]) with 1; lia).
Qed.

Notation ai := (ainv pt_dim n_leaf max_level n_node).
Notation nf := (node_fit pt_dim max_level n_node).

Lemma fit u : In u (flat root) -> nf u.
Proof.
  intros Hu. destruct (proj1 (flat_sub mc P) _ _ _ _ _ G u Hu) as (lv' & po' & G' & A1 & A2 & A3 & A4 & A5 & A6 & A7 & A8).
  pose proof (gt_inv mc P _ _ _ _ _ G') as (Q1 & Q2 & Q3 & Q4 & Q5 & Q6 & Q7 & Q8).
  pose proof (proj1 (gt_nnode mc P) _ _ _ _ _ G') as (N1 & N2 & N3 & N4).
  pose proof (mc_pos pt_dim Hd) as Hmc. fold mc in Hmc. pose proof root_po.
  unfold node_fit. fold mc. assert (t_height u <= max_level) by (unfold max_level; destruct A8 as [->|]; lia).
  assert (t_level u <= max_level) by (unfold max_level; lia).
  do 5 (split; [solve [auto; lia]|]). split; [auto|].
  intros c Hc. pose proof (children_po mc P _ _ _ _ _ G' c Hc). lia.
Qed.

Lemma stores_flat l1 : forall l2 a, l1 ++ l2 = flat root -> ai a l1 -> exists a', stores pt_dim n_leaf l2 a = Some a' /\ ai a' (flat root).
Proof.
  intros l2; revert l1; induction l2 as [|u l2 IH]; intros l1 a E A; simpl.
  - rewrite app_nil_r in E. subst. eauto.
  - assert (Hin : forall v, In v (l1 ++ [u]) -> In v (flat root)).
    { intros v Hv. rewrite <- E. change (u :: l2) with ([u] ++ l2). rewrite app_assoc. apply in_app_iff. now left. }
    assert (Hu : In u (flat root)) by (apply Hin, in_app_iff; right; now left).
    assert (Gu : getz (flat root) (zlen l1) = Some u).
    { rewrite <- E, getz_app2, Z.sub_diag by lia. reflexivity. }
    destruct (store_node_spec pt_dim n_leaf max_level n_node Hd a l1 u) as (a' & Ea & A'); auto.
    + apply fit; auto.
    + intros v Hv. assert (Hvr : In v (flat root)) by (apply Hin, in_app_iff; now left).
      assert (Hne : t_po v <> t_po u).
      { apply In_getz in Hv as [k Ek]. pose proof (getz_range _ _ _ Ek).
        assert (Ek' : getz (flat root) k = Some v) by (rewrite <- E, getz_app1 by lia; auto).
        apply flat_at in Ek'. apply flat_at in Gu. lia. }
      split; auto. intros c c' Hc Hc' Ec. apply Hne. apply (proj1 (parent_unique mc P) _ _ _ _ _ G v u c c'); auto.
    + intros c c' k k' Ek Ek' Ep. destruct (proj1 (flat_sub mc P) _ _ _ _ _ G u Hu) as (lv' & po' & G' & _).
      pose proof (gt_inv mc P _ _ _ _ _ G') as (_ & _ & _ & _ & _ & _ & _ & [[E0 _]|(_ & Gs & _)]).
      { rewrite E0 in Ek. apply getz_range in Ek. zlia. }
      destruct (gts_po_lt _ _ _ _ _ Gs k c Ek) as [_ X1]. destruct (gts_po_lt _ _ _ _ _ Gs k' c' Ek') as [_ X2].
      destruct (Z.lt_trichotomy k k') as [L|[L|L]]; auto; [specialize (X1 _ _ L Ek')|specialize (X2 _ _ L Ek)]; lia.
    + intros r Hr. pose proof (level_count mc P _ _ _ _ _ r G) as L1. pose proof (height_count mc P _ _ _ _ _ r G) as L2.
      rewrite <- E in L1, L2. change (u :: l2) with ([u] ++ l2) in L1, L2. rewrite app_assoc in L1, L2. rewrite zcount_app in L1, L2.
      pose proof (zcount_nonneg (fun u => t_level u =? r) l2). pose proof (zcount_nonneg (fun u => t_height u =? r) l2). fold n_leaf in L1, L2. lia.
    + intros v Hv. apply fit, Hin, in_app_iff. now left.
    + fold mc in Ea |- *. rewrite Ea. cbn [bind]. apply (IH (l1 ++ [u])); auto. rewrite <- app_assoc. auto.
Qed.

Lemma tree_arrays_ainv : exists a, tree_arrays pt_dim root max_level n_leaf = Some a /\ ai a (flat root) /\ ld (a_parent a) (n_node - 1) = Some (-1).
Proof.
  pose proof (proj1 (gt_nnode mc P) _ _ _ _ _ G) as (N1 & N2 & N3 & N4). fold n_node in N1. fold n_leaf in N3. fold max_level in N4.
  pose proof (mc_pos pt_dim Hd) as Hmc. fold mc in Hmc.
  unfold tree_arrays. cbv zeta. fold n_node. fold mc.
  destruct (zfill_spec (fun _ => 0) (fun i (m : mem Z) => st m i 0) 0 (max_level + 1) (alloc (max_level + 1))) as (c0 & E0 & Z0 & L0); auto; try lia.
  { rewrite zlen_alloc; lia. }
  rewrite E0. cbn [bind].
  set (a0 := TArr _ _ _ _ _ _ _ _ _ _ _).
  assert (A0 : ai a0 []).
  { assert (R : forall (g : tnode F -> Z) (tbl : mem Z), zlen tbl = (max_level + 1) * n_leaf -> rows_ok n_leaf max_level g tbl c0 []).
    { intros g tbl Zt. split; [rewrite Z0, zlen_alloc; lia|]. split; auto. intros r Hr. rewrite zcount_nil.
      split; [rewrite L0; destruct (Z.leb_spec 0 r), (Z.ltb_spec r (max_level + 1)); simpl; auto; lia|intros; lia]. }
    unfold ainv, a0, asizes; cbn. rewrite !zlen_alloc by nia. fold mc.
    split; [repeat split; lia|]. split; [intros ? []|]. split; apply R; rewrite zlen_alloc; nia. }
  rewrite (proj1 (t2a_stores pt_dim n_leaf P) _ _ _ _ _ G).
  destruct (stores_flat [] (flat root) a0 eq_refl A0) as (a & Ea & A). fold mc in Ea. rewrite Ea. cbn [bind].
  destruct A as ((S1 & S') & R & RL & RH).
  sto pa Epa. { lia. }
  eexists. split; [reflexivity|]. cbn. split; [|rewrite (ld_st _ _ _ _ _ Epa), Z.eqb_refl; auto].
  split; [|split; auto].
  - split; cbn; [rewrite (st_zlen _ _ _ _ Epa); auto|auto].
  - intros u Hu. destruct (R u Hu) as (D1 & D2 & D3 & D4). split; [|split; [|split]]; auto. intros k c Ec. destruct (D2 k c Ec) as [X1 X2]. split; auto.
    cbn. rewrite (ld_st _ _ _ _ _ Epa). destruct (Z.eqb_spec (n_node - 1) (t_po c)); auto. exfalso.
    destruct (proj1 (flat_sub mc P) _ _ _ _ _ G u Hu) as (lv' & po' & G' & _ & _ & _ & _ & A5 & _).
    pose proof (children_po mc P _ _ _ _ _ G' c (getz_In _ _ _ Ec)). pose proof root_po. lia.
Qed.

(** ** From the invariant to the specification *)

Lemma postorder_rel : (forall lv s e po t, gt mc P lv s e po t -> forall k k' u u', 0 <= k < k' -> getz (flat t) k = Some u -> getz (flat t) k' = Some u' ->
    t_e u < t_s u' \/ In u (flats (t_children u'))) /\
  (forall lv s e po ts, gts mc P lv s e po ts -> forall k k' u u', 0 <= k < k' -> getz (flats ts) k = Some u -> getz (flats ts) k' = Some u' ->
    t_e u < t_s u' \/ In u (flats (t_children u'))).
Proof.
  apply gt_ind2.
  - intros lv s e po b _ _ k k' u u' Hk E E'. apply getz_range in E'. change (zlen (flat _)) with 1 in E'. lia.
  - intros lv s e po b ts _ _ G' IH _ _ k k' u u' Hk E E'. rewrite flat_eq in E, E'. cbn [t_children] in E, E'.
    pose proof (getz_range _ _ _ E') as R. rewrite zlen_app in R. change (zlen [_]) with 1 in R.
    rewrite getz_app1 in E by lia. destruct (Z_lt_dec k' (zlen (flats ts))).
    + rewrite getz_app1 in E' by lia. eauto.
    + rewrite getz_app2 in E' by lia. replace (k' - zlen (flats ts)) with 0 in E' by lia. injection E' as <-. right. cbn [t_children]. eapply getz_In; eauto.
  - intros lv s po k k' u u' Hk E. apply getz_range in E. unfold flats in E. simpl in E. zlia.
  - intros lv s m e po t ts G1 IH1 G2 IH2 k k' u u' Hk E E'. unfold flats in E, E'. cbn [flat_map] in E, E'. fold (flats ts) in E, E'.
    destruct (Z_lt_dec k' (zlen (flat t))); [rewrite getz_app1 in E, E' by lia; eauto|]. rewrite getz_app2 in E' by lia.
    destruct (Z_lt_dec k (zlen (flat t))).
    + rewrite getz_app1 in E by lia. left. apply getz_In in E, E'.
      destruct (proj1 (flat_sub mc P) _ _ _ _ _ G1 u E) as (? & ? & _ & _ & _ & _ & B & _).
      destruct (proj2 (flat_sub mc P) _ _ _ _ _ G2 u' E') as (? & ? & _ & _ & _ & C & _). lia.
    + rewrite getz_app2 in E by lia. apply (IH2 (k - zlen (flat t)) (k' - zlen (flat t))); auto. lia.
Qed.

Lemma leaf_exists : (forall lv s e po t, gt mc P lv s e po t -> forall q, s <= q <= e -> exists u, In u (flat t) /\ t_children u = [] /\ t_s u <= q <= t_e u) /\
  (forall lv s e po ts, gts mc P lv s e po ts -> forall q, s <= q <= e -> exists u, In u (flats ts) /\ t_children u = [] /\ t_s u <= q <= t_e u).
Proof.
  apply gt_ind2.
  - intros lv s e po b Hse _ q Hq. eexists. split; [rewrite flat_eq; apply in_app_iff; right; left; reflexivity|]. cbn. auto.
  - intros lv s e po b ts _ _ G' IH _ _ q Hq. destruct (IH q Hq) as (u & A & B). exists u. split; auto. rewrite flat_eq. apply in_app_iff. now left.
  - intros. lia.
  - intros lv s m e po t ts G1 IH1 G2 IH2 q Hq. unfold flats in *. cbn [flat_map]. destruct (Z_le_dec q m).
    + destruct (IH1 q ltac:(lia)) as (u & A & B). exists u. split; auto. apply in_app_iff; now left.
    + destruct (IH2 q ltac:(lia)) as (u & A & B). exists u. split; auto. apply in_app_iff; now right.
Qed.

Fixpoint incr (l : list (tnode F)) : Prop :=
  match l with [] => True | x :: l' => (forall y, In y l' -> t_po x < t_po y) /\ incr l' end.

Lemma incr_of (l : list (tnode F)) : forall b, (forall k u, getz l k = Some u -> t_po u = b + k) -> incr l.
Proof.
  induction l as [|x l IH]; intros b H; simpl; auto.
  assert (H0 := H 0 x eq_refl).
  assert (H' : forall k u, getz l k = Some u -> t_po u = b + 1 + k).
  { intros k u E. pose proof (getz_range _ _ _ E). rewrite (H (1 + k) u); [lia|]. change (x :: l) with ([x] ++ l).
    rewrite getz_app2 by (change (zlen [x]) with 1; lia). change (zlen [x]) with 1. now replace (1 + k - 1) with k by lia. }
  split; [|eapply IH; eauto]. intros y Hy. apply In_getz in Hy as [k E]. pose proof (getz_range _ _ _ E). rewrite (H' _ _ E). lia.
Qed.

Lemma incr_filter f (l : list (tnode F)) : incr l -> incr (filter f l).
Proof.
  induction l as [|x l IH]; simpl; auto. intros [H1 H2]. destruct (f x); auto. split; auto. intros y Hy. apply filter_In in Hy. apply H1. tauto.
Qed.

Lemma incr_lt (l : list (tnode F)) : incr l -> forall k k' x y, 0 <= k < k' -> getz (map t_po l) k = Some x -> getz (map t_po l) k' = Some y -> x < y.
Proof.
  induction l as [|x0 l IH]; intros H k k' x y Hk E E'; [apply getz_range in E; simpl in E; zlia|].
  destruct H as [H1 H2]. change (map t_po (x0 :: l)) with ([t_po x0] ++ map t_po l) in E, E'.
  rewrite getz_app2 in E' by (change (zlen [t_po x0]) with 1; lia). change (zlen [t_po x0]) with 1 in E'.
  destruct (Z.eq_dec k 0) as [->|Hn].
  - injection E as <-. apply getz_In in E'. apply in_map_iff in E' as (z & <- & Hz). auto.
  - rewrite getz_app2 in E by (change (zlen [t_po x0]) with 1; lia). change (zlen [t_po x0]) with 1 in E.
    apply (IH H2 (k - 1) (k' - 1)); auto. lia.
Qed.

Lemma tmaxh_ge (ts : list (tnode F)) c : In c ts -> t_height c <= tmaxh ts.
Proof. unfold tmaxh. induction ts; simpl; [tauto|]. intros [->|H]; [lia|]. specialize (IHts H). lia. Qed.

Lemma tmaxh_hit (ts : list (tnode F)) : ts <> [] -> (forall c, In c ts -> 0 <= t_height c) -> exists c, In c ts /\ t_height c = tmaxh ts.
Proof.
  unfold tmaxh. induction ts as [|t ts IH]; [congruence|]. intros _ H. cbn [map fold_right].
  destruct ts as [|t' ts'].
  - exists t. split; [now left|]. simpl. pose proof (H t (or_introl eq_refl)). lia.
  - destruct IH as (c & Hc & Ec); [discriminate|intros; apply H; now right|].
    destruct (Z_le_dec (t_height t) (fold_right Z.max 0 (map t_height (t' :: ts')))).
    + exists c. split; [now right|]. lia.
    + exists t. split; [now left|]. lia.
Qed.

Section Final.
Context (a : tarrays F).
Hypothesis A : ai a (flat root).

Lemma rec_of u : In u (flat root) -> rec_ok pt_dim a u.
Proof. destruct A as (_ & R & _). auto. Qed.

Lemma nd_det u s e lv h nc : In u (flat root) -> node_data a (t_po u) s e lv h nc ->
  s = t_s u /\ e = t_e u /\ lv = t_level u /\ h = t_height u /\ nc = t_nchild u.
Proof.
  intros Hu (D1 & D2 & D3 & D4 & D5). destruct (rec_of u Hu) as ((E1 & E2 & E3 & E4 & E5) & _).
  repeat split; congruence.
Qed.

Lemma node_at i : 0 <= i < n_node -> exists u, In u (flat root) /\ t_po u = i.
Proof.
  intros Hi. destruct (getz_in (flat root) i) as [u Eu]; [rewrite n_node_eq; auto|]. exists u. split; [eapply getz_In; eauto|now apply flat_at].
Qed.

Lemma po_range u : In u (flat root) -> 0 <= t_po u < n_node.
Proof. intros H. now apply fit in H as (X & _). Qed.

Lemma tiles_of : forall lv s e po ts, gts mc P lv s e po ts -> forall p, (forall c, In c ts -> In c (flat root)) ->
  (forall c, In c ts -> ld (a_parent a) (t_po c) = Some p /\ t_po c < p) -> tiles a p lv s e (map t_po ts).
Proof.
  induction 1 as [lv s po|lv s m e po t ts G1 G2 IH]; intros p H1 H2; cbn [map tiles]; [lia|].
  pose proof (proj1 (gt_range mc P) _ _ _ _ _ G1) as (R1 & R2 & R3 & R4).
  exists m, (t_height t), (t_nchild t).
  assert (Ht : In t (flat root)) by (apply H1; now left).
  destruct (rec_of t Ht) as (D & _). rewrite R2, R3, R4 in D. destruct (H2 t (or_introl eq_refl)) as [X1 X2]. pose proof (po_range t Ht).
  split; auto. split; auto. split; [lia|]. split; [lia|]. apply IH; intros c Hc; [apply H1|apply H2]; now right.
Qed.

Lemma rows_lists g (tbl cnt : mem Z) (col : mem Z) : rows_ok n_leaf max_level g tbl cnt (flat root) ->
  (forall u, In u (flat root) -> ld col (t_po u) = Some (g u)) ->
  (forall r, zcount (fun u => g u =? r) (flat root) <= n_leaf) ->
  forall r, 0 <= r <= max_level -> lists tbl cnt n_leaf r (fun i => 0 <= i < n_node /\ ld col i = Some r).
Proof.
  intros (_ & _ & R) Hcol Hle r Hr. destruct (R r Hr) as [R1 R2].
  exists (map t_po (filter (fun u => g u =? r) (flat root))).
  assert (L : zlen (map t_po (filter (fun u => g u =? r) (flat root))) = zcount (fun u => g u =? r) (flat root)) by (rewrite zlen_map; reflexivity).
  rewrite L. split; auto. split; auto. split; auto. split.
  - intros i. rewrite in_map_iff. split.
    + intros (u & <- & Hu). apply filter_In in Hu as [Hu Eu]. split; [now apply po_range|]. rewrite (Hcol u Hu). f_equal. lia.
    + intros [Hi Ei]. destruct (node_at i Hi) as (u & Hu & Eu). exists u. split; auto. apply filter_In. split; auto.
      specialize (Hcol u Hu). rewrite Eu in Hcol. rewrite Ei in Hcol. injection Hcol as ->. apply Z.eqb_refl.
  - apply incr_lt, incr_filter, incr_of with (b := 0). intros k u E. rewrite (flat_at k u E). lia.
Qed.

Theorem cluster_tree_of : ld (a_parent a) (n_node - 1) = Some (-1) -> cluster_tree pt_dim n_point n_node max_level n_leaf a.
Proof.
  intros Hroot. assert (Emc : 2 ^ pt_dim = mc) by (unfold mc; now rewrite Z.shiftl_1_l).
  pose proof (proj1 (gt_nnode mc P) _ _ _ _ _ G) as (N1 & N2 & N3 & N4). fold n_node in N1.
  assert (Hsub : forall u, In u (flat root) -> exists lv po, gt mc P lv (t_s u) (t_e u) po u /\ 0 <= t_s u /\ t_e u <= n_point - 1).
  { intros u Hu. destruct (proj1 (flat_sub mc P) _ _ _ _ _ G u Hu) as (lv & po & X1 & X2 & X3 & X4 & X5 & _). eauto. }
  constructor; rewrite ?Emc.
  - split; auto. split; auto. exists (t_nchild root). pose proof (rec_of root root_in) as (D & _).
    pose proof (proj1 (gt_range mc P) _ _ _ _ _ G) as (R1 & R2 & R3 & R4). rewrite R2, R3, R4, root_po in D. auto.
  - intros i Hi. destruct (node_at i Hi) as (u & Hu & <-). destruct (rec_of u Hu) as (D & _). destruct (fit u Hu) as (F1 & F2 & F3 & F4 & F5 & F6 & F7).
    exists (t_s u), (t_e u), (t_level u), (t_height u), (t_nchild u). destruct (Hsub u Hu) as (lv & po & G' & H1 & H2).
    pose proof (gt_inv mc P _ _ _ _ _ G') as (Q1 & _ & _ & Q4 & Q5 & Q6 & Q7 & Q8). pose proof (zlen_nonneg (t_children u)).
    split; auto. fold mc in F5. repeat (split; [solve [lia]|]). destruct Q8 as [[E0 Eh]|(Ne & Gs & Eh)].
    + rewrite Q6, E0. zlia.
    + pose proof (proj2 (gt_nnode mc P) _ _ _ _ _ Gs) as (_ & M & _). destruct (t_children u); [congruence|]. zlia.
  - intros i s e lv h nc Hi D Hnc. destruct (node_at i Hi) as (u & Hu & <-). destruct (nd_det u _ _ _ _ _ Hu D) as (-> & -> & -> & -> & ->).
    destruct (Hsub u Hu) as (lv & po & G' & H1 & H2). pose proof (gt_inv mc P _ _ _ _ _ G') as (Q1 & _ & _ & Q4 & Q5 & Q6 & Q7 & Q8).
    destruct Q8 as [[E0 _]|(Ne & Gs & Eh)]; [rewrite Q6, E0 in Hnc; zlia|].
    destruct (rec_of u Hu) as (_ & D2 & _).
    assert (Hch : forall c, In c (t_children u) -> In c (flat root)) by (intros c Hc; apply (proj1 sub_closed _ _ _ _ _ G u c); auto).
    exists (map t_po (t_children u)). rewrite zlen_map. split; auto. split; [|split; [|split]].
    + intros k Hk. destruct (getz_in (t_children u) k) as [c Ec]; [lia|]. rewrite getz_map, Ec. simpl. apply (D2 k c Ec).
    + rewrite <- Q5 in Gs. apply (tiles_of _ _ _ _ _ Gs); auto. intros c Hc. pose proof (children_po mc P _ _ _ _ _ G' c Hc).
      apply In_getz in Hc as [k Ek]. destruct (D2 k c Ek). split; auto. lia.
    + intros c Hc. apply in_map_iff in Hc as (c' & <- & Hc'). exists (t_height c'). destruct (rec_of c' (Hch c' Hc')) as ((_ & _ & _ & E4 & _) & _).
      split; auto. pose proof (tmaxh_ge _ _ Hc'). lia.
    + destruct (tmaxh_hit (t_children u) Ne) as (c & Hc & Ec). { intros c Hc. destruct (fit c (Hch c Hc)) as (_ & _ & X & _). lia. }
      exists (t_po c). split; [apply in_map; auto|]. destruct (rec_of c (Hch c Hc)) as ((_ & _ & _ & E4 & _) & _). rewrite E4. f_equal. lia.
  - intros i k nc Hi Enc Hk. destruct (node_at i Hi) as (u & Hu & <-). destruct (rec_of u Hu) as ((_ & _ & _ & _ & E5) & _ & D3 & _).
    fold mc in D3. apply D3. assert (nc = t_nchild u) by congruence. lia.
  - intros i Hi. destruct (node_at i ltac:(lia)) as (u & Hu & Eu).
    assert (X : (forall lv s e po t, gt mc P lv s e po t -> forall u, In u (flat t) -> u = t \/ exists v k, In v (flat t) /\ getz (t_children v) k = Some u) /\
      (forall lv s e po ts, gts mc P lv s e po ts -> forall u, In u (flats ts) -> In u ts \/ exists v k, In v (flats ts) /\ getz (t_children v) k = Some u)).
    { clear. apply gt_ind2.
      - intros lv s e po b _ _ u [<-|[]]. now left.
      - intros lv s e po b ts _ _ G' IH _ _ u Hu. rewrite flat_eq in Hu. cbn [t_children] in Hu. apply in_app_iff in Hu as [Hu|[<-|[]]]; [|now left]. right.
        rewrite flat_eq. destruct (IH u Hu) as [Hi|(v & k & Hv & Ev)].
        + apply In_getz in Hi as [k Ek]. eexists _, k. split; [apply in_app_iff; right; now left|exact Ek].
        + exists v, k. split; auto. apply in_app_iff; now left.
      - intros ? ? ? ? [].
      - intros lv s m e po t ts G1 IH1 G2 IH2 u Hu. unfold flats in *. cbn [flat_map] in *. apply in_app_iff in Hu as [Hu|Hu].
        + destruct (IH1 u Hu) as [->|(v & k & Hv & Ev)]; [left; now left|]. right. exists v, k. split; auto. apply in_app_iff; now left.
        + destruct (IH2 u Hu) as [Hi|(v & k & Hv & Ev)]; [left; now right|]. right. exists v, k. split; auto. apply in_app_iff; now right. }
    destruct (proj1 X _ _ _ _ _ G u Hu) as [->|(v & k & Hv & Ev)]; [rewrite root_po in Eu; lia|].
    destruct (rec_of v Hv) as ((_ & _ & _ & _ & E5) & D2 & _). destruct (D2 k u Ev) as [X1 X2]. pose proof (getz_range _ _ _ Ev).
    destruct (Hsub v Hv) as (lv & po & G' & _). pose proof (children_po mc P _ _ _ _ _ G' u (getz_In _ _ _ Ev)).
    pose proof (gt_inv mc P _ _ _ _ _ G') as (_ & _ & _ & _ & _ & Q6 & _). pose proof (po_range v Hv).
    exists (t_po v), (t_nchild v), k. rewrite <- Eu. repeat (split; [solve [auto; lia]|]). auto.
  - intros i j si ei li hi ni sj ej lj hj nj Hij Hj Di Dj. destruct (node_at i ltac:(lia)) as (u & Hu & <-). destruct (node_at j ltac:(lia)) as (v & Hv & <-).
    destruct (nd_det u _ _ _ _ _ Hu Di) as (-> & -> & -> & -> & ->). destruct (nd_det v _ _ _ _ _ Hv Dj) as (-> & -> & -> & -> & ->).
    destruct (proj1 postorder_rel _ _ _ _ _ G (t_po u) (t_po v) u v) as [X|X]; auto using flat_in. right.
    destruct (Hsub v Hv) as (lv & po & G' & _). pose proof (gt_inv mc P _ _ _ _ _ G') as (_ & _ & _ & _ & _ & _ & _ & [[E0 _]|(_ & Gs & _)]).
    { rewrite E0 in X. destruct X. }
    destruct (proj2 (flat_sub mc P) _ _ _ _ _ Gs u X) as (? & ? & _ & _ & _ & Y1 & Y2 & _). auto.
  - intros q Hq. destruct (proj1 leaf_exists _ _ _ _ _ G q ltac:(lia)) as (u & Hu & Ec & Eq). exists (t_po u). split.
    + split; [now apply po_range|]. exists (t_s u), (t_e u), (t_level u). split; auto.
      destruct (rec_of u Hu) as (D & _). destruct (Hsub u Hu) as (lv & po & G' & _).
      pose proof (gt_inv mc P _ _ _ _ _ G') as (_ & _ & _ & _ & _ & Q6 & _ & [[_ E0]|(Ne & _)]); [|congruence].
      rewrite E0, Q6, Ec in D. exact D.
    + intros i' (Hi' & s & e & lv & D & Hse). destruct (node_at i' Hi') as (v & Hv & <-).
      destruct (nd_det v _ _ _ _ _ Hv D) as (-> & -> & -> & Eh & En).
      assert (Ecv : t_children v = []). { destruct (fit v Hv) as (_ & _ & _ & F4 & _). destruct (t_children v); auto. zlia. }
      destruct (Z.lt_trichotomy (t_po u) (t_po v)) as [L|[L|L]]; auto; exfalso; pose proof (po_range u Hu); pose proof (po_range v Hv).
      * destruct (proj1 postorder_rel _ _ _ _ _ G (t_po u) (t_po v) u v) as [X|X]; auto using flat_in; try lia. rewrite Ecv in X. destruct X.
      * destruct (proj1 postorder_rel _ _ _ _ _ G (t_po v) (t_po u) v u) as [X|X]; auto using flat_in; try lia. rewrite Ec in X. destruct X.
  - apply rows_lists with (g := t_level).
    + now destruct A as (_ & _ & X & _).
    + intros u Hu. now destruct (rec_of u Hu) as ((_ & _ & E & _ & _) & _).
    + intros r. apply (level_count mc P _ _ _ _ _ r G).
  - apply rows_lists with (g := t_height).
    + now destruct A as (_ & _ & _ & X).
    + intros u Hu. now destruct (rec_of u Hu) as ((_ & _ & _ & E & _) & _).
    + intros r. apply (height_count mc P _ _ _ _ _ r G).
  - destruct A as (_ & _ & _ & (_ & _ & X)). destruct (X 0) as [X1 _]; [unfold max_level; lia|]. rewrite X1. f_equal. apply (proj1 (leaf_count mc P) _ _ _ _ _ G).
Qed.

Lemma box_of u : In u (flat root) -> forall k, 0 <= k < pt_dim * 2 -> getz (a_box a) (t_po u * (pt_dim * 2) + k) = getz (t_box u) k.
Proof. intros Hu. destruct (rec_of u Hu) as (_ & _ & _ & D). auto. Qed.

End Final.
End Whole.
