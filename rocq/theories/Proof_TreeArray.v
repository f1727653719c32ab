(** Conversion of the linked tree to arrays. *)
From Coq Require Import ZArith QArith List Lia Bool Permutation.
From Verif Require Import Base Mem Num Spec_Utils Proof_Utils Proof_Bucket Model_Partition Proof_Partition Proof_Bisect Spec_Tree.
Import ListNotations.
Open Scope Z_scope.

Section Flat.
Context {F : num}.

(** Post-order list of the nodes. *)
Fixpoint flat (t : tnode F) : list (tnode F) := flat_map flat (t_children t) ++ [t].
Definition flats (ts : list (tnode F)) := flat_map flat ts.

Lemma flat_eq t : flat t = flats (t_children t) ++ [t].
Proof. destruct t; reflexivity. Qed.

Context (mc : Z) (P : tnode F -> Prop).

Lemma flat_len : (forall lv s e po t, gt mc P lv s e po t -> zlen (flat t) = t_nnode t) /\
  (forall lv s e po ts, gts mc P lv s e po ts -> zlen (flats ts) = tnn ts).
Proof.
  apply gt_ind2; intros.
  - reflexivity.
  - rewrite flat_eq, zlen_app. cbn [t_children t_nnode]. rewrite H. zlia.
  - reflexivity.
  - unfold flats, tnn in *. cbn [flat_map map zsum fold_right]. rewrite zlen_app. fold (zsum (map t_nnode ts)). lia.
Qed.

Lemma flat_po : (forall lv s e po t, gt mc P lv s e po t -> forall k u, getz (flat t) k = Some u -> t_po u = po + k) /\
  (forall lv s e po ts, gts mc P lv s e po ts -> forall k u, getz (flats ts) k = Some u -> t_po u = po + k).
Proof.
  destruct flat_len as [L1 L2].
  apply gt_ind2.
  - intros lv s e po b _ _ k u E. pose proof (getz_range _ _ _ E). change (zlen (flat _)) with 1 in H. replace k with 0 in * by lia.
    injection E as <-. simpl. lia.
  - intros lv s e po b ts Hne Hl G IH Hse HP k u E. rewrite flat_eq in E. cbn [t_children] in E.
    specialize (L2 _ _ _ _ _ G). destruct (Z_lt_dec k (zlen (flats ts))).
    + rewrite getz_app1 in E by auto. eauto.
    + rewrite getz_app2 in E by lia. pose proof (getz_range _ _ _ E) as R. change (zlen [_]) with 1 in R.
      replace (k - zlen (flats ts)) with 0 in E by lia. injection E as <-. cbn [t_po]. lia.
  - intros lv s po k u E. apply getz_range in E. unfold flats in E. simpl in E. zlia.
  - intros lv s m e po t ts G IH Gs IHs k u E. unfold flats in E. cbn [flat_map] in E. fold (flats ts) in E.
    specialize (L1 _ _ _ _ _ G). destruct (Z_lt_dec k (zlen (flat t))).
    + rewrite getz_app1 in E by auto. eauto.
    + rewrite getz_app2 in E by lia. apply IHs in E. lia.
Qed.

(** Every node of the flattened tree is itself the root of a proper tree inside. *)
Lemma flat_sub : (forall lv s e po t, gt mc P lv s e po t -> forall u, In u (flat t) ->
    exists lv' po', gt mc P lv' (t_s u) (t_e u) po' u /\ lv <= lv' /\ po <= po' /\ s <= t_s u /\ t_e u <= e /\ t_po u <= t_po t /\ (lv' = lv -> u = t) /\ lv' + t_height u <= lv + t_height t /\ (u = t \/ t_height u < t_height t)) /\
  (forall lv s e po ts, gts mc P lv s e po ts -> forall u, In u (flats ts) ->
    exists lv' po', gt mc P lv' (t_s u) (t_e u) po' u /\ lv <= lv' /\ po <= po' /\ s <= t_s u /\ t_e u <= e /\ t_po u < po + tnn ts /\ lv' + t_height u <= lv + tmaxh ts /\ t_height u <= tmaxh ts).
Proof.
  apply gt_ind2.
  - intros lv s e po b Hse HP u [<-|[]]. exists lv, po. cbn [t_s t_e t_po t_height]. split; [constructor; auto|].
    repeat (split; [solve [auto; lia]|]). auto.
  - intros lv s e po b ts Hne Hl G IH Hse HP u Hu. rewrite flat_eq in Hu. cbn [t_children] in Hu. apply in_app_iff in Hu as [Hu|[<-|[]]].
    + destruct (IH u Hu) as (lv' & po' & G' & A1 & A2 & A3 & A4 & A5 & A6 & A7). exists lv', po'. cbn [t_po t_height]. split; auto.
      repeat (split; [solve [lia]|]). right. lia.
    + exists lv, po. cbn [t_s t_e t_po t_height]. split; [constructor; auto|]. repeat (split; [solve [lia]|]). split; auto. split; auto. lia.
  - intros lv s po u [].
  - intros lv s m e po t ts G IH Gs IHs u Hu. unfold flats in Hu. cbn [flat_map] in Hu. fold (flats ts) in Hu.
    pose proof (proj1 (gt_nnode mc P) _ _ _ _ _ G) as (N1 & N2 & _ & N4). pose proof (proj2 (gt_nnode mc P) _ _ _ _ _ Gs) as (M1 & M2 & _).
    pose proof (proj1 (gt_range mc P) _ _ _ _ _ G) as (R1 & _). pose proof (proj2 (gt_range mc P) _ _ _ _ _ Gs) as R2.
    assert (E : tnn (t :: ts) = t_nnode t + tnn ts) by (unfold tnn; simpl; reflexivity).
    assert (E2 : tmaxh (t :: ts) = Z.max (t_height t) (tmaxh ts)) by (unfold tmaxh; simpl; reflexivity).
    apply in_app_iff in Hu as [Hu|Hu].
    + destruct (IH u Hu) as (lv' & po' & G' & A1 & A2 & A3 & A4 & A5 & A6 & A7 & A8). exists lv', po'. split; auto.
      assert (t_height u <= t_height t) by (destruct A8 as [->|]; lia). repeat split; try lia.
    + destruct (IHs u Hu) as (lv' & po' & G' & A1 & A2 & A3 & A4 & A5 & A6 & A7). exists lv', po'. split; auto. repeat split; lia.
Qed.

Lemma child_in_flats (ts : list (tnode F)) c : In c ts -> In c (flats ts).
Proof.
  intros H. unfold flats. apply in_flat_map. exists c. split; auto. rewrite flat_eq. apply in_app_iff. right. now left.
Qed.

(** Children of a node of the tree, as positions. *)
Lemma children_po : forall lv s e po u, gt mc P lv s e po u -> forall c, In c (t_children u) -> po <= t_po c < t_po u.
Proof.
  intros lv s e po u G c Hc. inversion G; subst; cbn [t_children t_po] in *; [destruct Hc|].
  destruct (proj2 flat_sub _ _ _ _ _ H1 c (child_in_flats _ _ Hc)) as (lv' & po' & G' & A1 & A2 & A3 & A4 & A5 & _).
  pose proof (proj1 (gt_nnode mc P) _ _ _ _ _ G') as (N1 & N2 & _). lia.
Qed.

(** A node is the child of one node only. *)
Lemma parent_unique : (forall lv s e po t, gt mc P lv s e po t -> forall u u' c c', In u (flat t) -> In u' (flat t) ->
    In c (t_children u) -> In c' (t_children u') -> t_po c = t_po c' -> t_po u = t_po u') /\
  (forall lv s e po ts, gts mc P lv s e po ts -> 
    (forall u u' c c', In u (flats ts) -> In u' (flats ts) ->
    In c (t_children u) -> In c' (t_children u') -> t_po c = t_po c' -> t_po u = t_po u') /\
    (forall u c c', In u (flats ts) -> In c (t_children u) -> In c' ts -> t_po c <> t_po c') /\
    (forall u c, In u (flats ts) -> In c (t_children u) -> po <= t_po c < po + tnn ts)).
Proof.
  apply gt_ind2.
  - intros lv s e po b Hse HP u u' c c' [<-|[]]. intros _ [].
  - intros lv s e po b ts Hne Hl G (IH & IH2 & IH3) Hse HP u u' c c' Hu Hu' Hc Hc' E.
    rewrite flat_eq in Hu, Hu'. cbn [t_children] in Hu, Hu'. apply in_app_iff in Hu as [Hu|[<-|[]]]; apply in_app_iff in Hu' as [Hu'|[<-|[]]]; auto.
    + eauto. + exfalso. eapply IH2; eauto. + exfalso. eapply IH2; [exact Hu'| | |symmetry; exact E]; auto.
  - intros lv s po. split; [intros ? ? ? ? []|]. split; [intros ? ? ? []|intros ? ? []].
  - intros lv s m e po t ts G IH Gs (IHs & IHs2 & IHs3).
    pose proof (proj1 (gt_nnode mc P) _ _ _ _ _ G) as (N1 & N2 & _). pose proof (proj2 (gt_nnode mc P) _ _ _ _ _ Gs) as (M1 & _).
    assert (E : tnn (t :: ts) = t_nnode t + tnn ts) by (unfold tnn; simpl; reflexivity).
    assert (Ft : forall u c, In u (flat t) -> In c (t_children u) -> po <= t_po c < po + t_nnode t - 1).
    { intros u c Hu Hc. destruct (proj1 flat_sub _ _ _ _ _ G u Hu) as (lv' & po' & G' & A1 & A2 & A3 & A4 & A5 & _).
      pose proof (children_po _ _ _ _ _ G' c Hc). lia. }
    assert (Fs : forall c, In c ts -> po + t_nnode t <= t_po c).
    { intros c Hc. destruct (proj2 flat_sub _ _ _ _ _ Gs c (child_in_flats _ _ Hc)) as (lv' & po' & G' & A1 & A2 & A3 & A4 & A5 & _).
      pose proof (proj1 (gt_nnode mc P) _ _ _ _ _ G') as (K1 & K2 & _). lia. }
    split; [|split].
    + intros u u' c c' Hu Hu' Hc Hc' Ec. unfold flats in Hu, Hu'. cbn [flat_map] in Hu, Hu'. fold (flats ts) in Hu, Hu'.
      apply in_app_iff in Hu as [Hu|Hu]; apply in_app_iff in Hu' as [Hu'|Hu'].
      * eauto. * pose proof (Ft u c Hu Hc). pose proof (IHs3 u' c' Hu' Hc'). lia.
      * pose proof (Ft u' c' Hu' Hc'). pose proof (IHs3 u c Hu Hc). lia. * eauto.
    + intros u c c' Hu Hc Hc' Ec. unfold flats in Hu. cbn [flat_map] in Hu. fold (flats ts) in Hu.
      apply in_app_iff in Hu as [Hu|Hu]; destruct Hc' as [<-|Hc'].
      * pose proof (Ft u c Hu Hc). lia. * pose proof (Ft u c Hu Hc). pose proof (Fs c' Hc'). lia.
      * pose proof (IHs3 u c Hu Hc). lia. * eapply IHs2; eauto.
    + intros u c Hu Hc. unfold flats in Hu. cbn [flat_map] in Hu. fold (flats ts) in Hu.
      apply in_app_iff in Hu as [Hu|Hu]; [pose proof (Ft u c Hu Hc)|pose proof (IHs3 u c Hu Hc)]; lia.
Qed.

(** An antichain has at most as many nodes as there are leaves. *)
Lemma antichain_leaves (f : tnode F -> bool) :
  (forall lv s e po t, gt mc P lv s e po t -> (forall u v, In u (flat t) -> f u = true -> In v (flats (t_children u)) -> f v = false) -> zcount f (flat t) <= leaves t) /\
  (forall lv s e po ts, gts mc P lv s e po ts -> (forall u v, In u (flats ts) -> f u = true -> In v (flats (t_children u)) -> f v = false) ->
     zcount f (flats ts) <= zsum (map leaves ts)).
Proof.
  apply gt_ind2.
  - intros lv s e po b Hse HP H. rewrite flat_eq, zcount_app, zcount_cons, zcount_nil. cbn [t_children flats flat_map leaves]. rewrite zcount_nil.
    destruct (f _); lia.
  - intros lv s e po b ts Hne Hl G IH Hse HP H. rewrite flat_eq, zcount_app, zcount_cons, zcount_nil.
    set (t := TNode s e _ _ _ _ _ _ _) in *. cbn [t_children t].
    assert (El : leaves t = zsum (map leaves ts)). { unfold t. cbn [leaves t_children]. destruct ts; [congruence|reflexivity]. }
    rewrite El. destruct (f t) eqn:Ef.
    + rewrite (proj2 (zcount_zero f (flats ts))).
      * pose proof (proj2 (gt_nnode mc P) _ _ _ _ _ G) as (_ & _ & L). specialize (L Hne). lia.
      * intros v Hv. apply (H t v); auto. rewrite flat_eq. apply in_app_iff. right. now left.
    + rewrite !Z.add_0_r. apply IH. intros u v Hu. apply H. rewrite flat_eq. apply in_app_iff. now left.
  - intros lv s po H. unfold flats. simpl. rewrite zcount_nil. lia.
  - intros lv s m e po t ts G IH Gs IHs H. unfold flats in *. cbn [flat_map map zsum fold_right]. rewrite zcount_app. fold (zsum (map leaves ts)).
    assert (zcount f (flat t) <= leaves t). { apply IH. intros u v Hu. apply H. cbn [flat_map]. apply in_app_iff. now left. }
    assert (zcount f (flat_map flat ts) <= zsum (map leaves ts)). { apply IHs. intros u v Hu. apply H. cbn [flat_map]. apply in_app_iff. now right. }
    lia.
Qed.

Lemma gt_inv lv s e po u : gt mc P lv s e po u -> P u /\ t_s u = s /\ t_e u = e /\ s <= e /\ t_level u = lv /\ t_nchild u = zlen (t_children u) /\
  zlen (t_children u) <= Z.max 0 mc /\
  ((t_children u = [] /\ t_height u = 0) \/
   (t_children u <> [] /\ gts mc P (lv + 1) s e po (t_children u) /\ t_height u = tmaxh (t_children u) + 1)).
Proof.
  intros G; inversion G; subst; cbn; repeat (split; [solve [auto; zlia]|]); auto.
Qed.

Lemma level_count lv s e po t l : gt mc P lv s e po t -> zcount (fun u => t_level u =? l) (flat t) <= leaves t.
Proof.
  intros G. eapply (proj1 (antichain_leaves _)); eauto. intros u v Hu Ef Hv.
  destruct (proj1 flat_sub _ _ _ _ _ G u Hu) as (lv' & po' & G' & _).
  apply gt_inv in G' as (_ & _ & _ & _ & El & _ & _ & [[E0 _]|(_ & H1 & _)]); [rewrite E0 in Hv; destruct Hv|].
  destruct (proj2 flat_sub _ _ _ _ _ H1 v Hv) as (lv2 & po2 & G2 & A1 & _).
  pose proof (proj1 (gt_range mc P) _ _ _ _ _ G2) as (_ & _ & _ & R). lia.
Qed.

Lemma height_count lv s e po t h : gt mc P lv s e po t -> zcount (fun u => t_height u =? h) (flat t) <= leaves t.
Proof.
  intros G. eapply (proj1 (antichain_leaves _)); eauto. intros u v Hu Ef Hv.
  destruct (proj1 flat_sub _ _ _ _ _ G u Hu) as (lv' & po' & G' & _).
  apply gt_inv in G' as (_ & _ & _ & _ & El & _ & _ & [[E0 _]|(_ & H1 & Eh)]); [rewrite E0 in Hv; destruct Hv|].
  destruct (proj2 flat_sub _ _ _ _ _ H1 v Hv) as (lv2 & po2 & G2 & A1 & A2 & A3 & A4 & A5 & A6 & A7). lia.
Qed.

Lemma leaf_count : (forall lv s e po t, gt mc P lv s e po t -> zcount (fun u => t_height u =? 0) (flat t) = leaves t) /\
  (forall lv s e po ts, gts mc P lv s e po ts -> zcount (fun u => t_height u =? 0) (flats ts) = zsum (map leaves ts)).
Proof.
  apply gt_ind2.
  - intros. reflexivity.
  - intros lv s e po b ts Hne Hl G IH Hse HP. rewrite flat_eq, zcount_app, zcount_cons, zcount_nil. cbn [t_children t_height].
    pose proof (proj2 (gt_nnode mc P) _ _ _ _ _ G) as (_ & L & _). rewrite IH.
    destruct (Z.eqb_spec (tmaxh ts + 1) 0); [lia|]. cbn [leaves t_children]. destruct ts; [congruence|]. lia.
  - reflexivity.
  - intros lv s m e po t ts G IH Gs IHs. unfold flats in *. cbn [flat_map map zsum fold_right]. rewrite zcount_app. fold (zsum (map leaves ts)). lia.
Qed.

End Flat.

Section Arrays.
Context {F : num} (pt_dim n_leaf max_level n_node : Z).
Hypothesis Hd : 1 <= pt_dim.
Let mc := Z.shiftl 1 pt_dim.
Context (P : tnode F -> Prop).
Hypothesis HP : forall u, P u -> box_init pt_dim (t_box u).

Fixpoint stores (l : list (tnode F)) (a : tarrays F) : option (tarrays F) :=
  match l with [] => Some a | u :: l' => a <- store_node pt_dim mc n_leaf u a; stores l' a end.

Lemma stores_app l m a : stores (l ++ m) a = (a <- stores l a; stores m a).
Proof. revert a; induction l; intros; simpl; auto. destruct (store_node _ _ _ _ _); simpl; auto. Qed.

Fixpoint t2as (ts : list (tnode F)) (a : tarrays F) : option (tarrays F) :=
  match ts with [] => Some a | c :: ts' => a <- tree_to_array pt_dim mc n_leaf c a; t2as ts' a end.

Lemma t2a_eq t a : tree_to_array pt_dim mc n_leaf t a = (a <- t2as (t_children t) a; store_node pt_dim mc n_leaf t a).
Proof.
  destruct t as [s e nc nn po lv h b ts]. cbn [tree_to_array t_children]. 
  assert (E : forall ts a, (fix go (ts0 : list (tnode F)) (a0 : tarrays F) {struct ts0} : option (tarrays F) :=
      match ts0 with [] => Some a0 | c :: ts' => a1 <- tree_to_array pt_dim mc n_leaf c a0; go ts' a1 end) ts a = t2as ts a).
  { induction ts0; intros; auto. }
  now rewrite E.
Qed.

Lemma t2a_stores : (forall lv s e po t, gt mc P lv s e po t -> forall a, tree_to_array pt_dim mc n_leaf t a = stores (flat t) a) /\
  (forall lv s e po ts, gts mc P lv s e po ts -> forall a, t2as ts a = stores (flats ts) a).
Proof.
  apply gt_ind2.
  - intros. rewrite t2a_eq. cbn [t_children t2as bind flat flat_map app stores]. now destruct (store_node _ _ _ _ _).
  - intros lv s e po b ts Hne Hl G IH Hse HPt a. rewrite t2a_eq, flat_eq, stores_app. cbn [t_children]. rewrite IH.
    destruct (stores (flats ts) a); cbn [bind stores]; auto. now destruct (store_node _ _ _ _ _).
  - reflexivity.
  - intros lv s m e po t ts G IH Gs IHs a. unfold flats in *. cbn [t2as flat_map]. rewrite stores_app, IH.
    destruct (stores (flat t) a); cbn [bind]; auto.
Qed.

(** Table of nodes by level (or height). *)
Definition rows_ok (g : tnode F -> Z) (tbl cnt : mem Z) (l1 : list (tnode F)) : Prop :=
  zlen cnt = max_level + 1 /\ zlen tbl = (max_level + 1) * n_leaf /\
  forall r, 0 <= r <= max_level ->
    ld cnt r = Some (zcount (fun u => g u =? r) l1) /\
    forall k, 0 <= k < zcount (fun u => g u =? r) l1 -> ld tbl (r * n_leaf + k) = getz (map t_po (filter (fun u => g u =? r) l1)) k.

Lemma rows_push g tbl cnt l1 u : rows_ok g tbl cnt l1 -> 0 <= g u <= max_level ->
  zcount (fun v => g v =? g u) (l1 ++ [u]) <= n_leaf -> (forall r, 0 <= r <= max_level -> zcount (fun v => g v =? r) l1 <= n_leaf) ->
  exists c tbl' cnt', ld cnt (g u) = Some c /\ st tbl (g u * n_leaf + c) (t_po u) = Some tbl' /\ st cnt (g u) (c + 1) = Some cnt' /\
    rows_ok g tbl' cnt' (l1 ++ [u]).
Proof.
  intros (Z1 & Z2 & R) Hg Hc Hle. destruct (R (g u) Hg) as [E1 _].
  set (c := zcount (fun v => g v =? g u) l1) in *. pose proof (zcount_nonneg (fun v => g v =? g u) l1) as Hc0. fold c in Hc0.
  assert (Ec : zcount (fun v => g v =? g u) (l1 ++ [u]) = c + 1).
  { rewrite zcount_app, zcount_cons, zcount_nil, Z.eqb_refl. fold c. lia. }
  rewrite Ec in Hc.
  destruct (st_Some tbl (g u * n_leaf + c) (t_po u)) as [tbl' Et]. { rewrite Z2. nia. }
  destruct (st_Some cnt (g u) (c + 1)) as [cnt' En]. { lia. }
  exists c, tbl', cnt'. split; auto. split; auto. split; auto. split; [rewrite (st_zlen _ _ _ _ En); auto|].
  split; [rewrite (st_zlen _ _ _ _ Et); auto|]. intros r Hr. destruct (R r Hr) as [R1 R2].
  pose proof (Hle r Hr) as Hler.
  destruct (Z.eq_dec (g u) r) as [Er|Ner].
  - subst r. rewrite Ec. split; [rewrite (ld_st _ _ _ _ _ En), Z.eqb_refl; auto|].
    intros k Hk. rewrite (ld_st _ _ _ _ _ Et), filter_app, map_app. simpl. rewrite Z.eqb_refl. simpl.
    assert (Lm : zlen (map t_po (filter (fun v => g v =? g u) l1)) = c) by (rewrite zlen_map; reflexivity).
    destruct (Z.eqb_spec (g u * n_leaf + c) (g u * n_leaf + k)).
    + rewrite getz_app2 by lia. rewrite Lm. replace (k - c) with 0 by lia. reflexivity.
    + rewrite getz_app1 by lia. apply R2. fold c. lia.
  - assert (E0 : zcount (fun v => g v =? r) (l1 ++ [u]) = zcount (fun v => g v =? r) l1).
    { rewrite zcount_app, zcount_cons, zcount_nil. destruct (Z.eqb_spec (g u) r); lia. }
    rewrite E0. split; [rewrite (ld_st _ _ _ _ _ En); destruct (Z.eqb_spec (g u) r); [lia|auto]|].
    intros k Hk. rewrite (ld_st _ _ _ _ _ Et), filter_app, map_app. simpl. destruct (Z.eqb_spec (g u) r); [lia|]. simpl. rewrite app_nil_r.
    destruct (Z.eqb_spec (g u * n_leaf + c) (r * n_leaf + k)); [|auto].
    exfalso. apply Ner. assert (g u = r) by nia. auto.
Qed.

Definition rec_ok (a : tarrays F) (u : tnode F) : Prop :=
  node_data a (t_po u) (t_s u) (t_e u) (t_level u) (t_height u) (t_nchild u) /\
  (forall k c, getz (t_children u) k = Some c -> ld (a_children a) (t_po u * mc + k) = Some (t_po c) /\ ld (a_parent a) (t_po c) = Some (t_po u)) /\
  (forall k, t_nchild u <= k < mc -> ld (a_children a) (t_po u * mc + k) = Some (-1)) /\
  (forall k, 0 <= k < pt_dim * 2 -> getz (a_box a) (t_po u * (pt_dim * 2) + k) = getz (t_box u) k).

Definition asizes (a : tarrays F) : Prop :=
  zlen (a_parent a) = n_node /\ zlen (a_children a) = n_node * mc /\ zlen (a_cluster a) = n_node * 2 /\
  zlen (a_nchild a) = n_node /\ zlen (a_level a) = n_node /\ zlen (a_height a) = n_node /\
  zlen (a_box a) = n_node * (pt_dim * 2).

Definition ainv (a : tarrays F) (l1 : list (tnode F)) : Prop :=
  asizes a /\ (forall u, In u l1 -> rec_ok a u) /\
  rows_ok t_level (a_level_nodes a) (a_level_n a) l1 /\ rows_ok t_height (a_height_nodes a) (a_height_n a) l1.

Definition node_fit (u : tnode F) : Prop :=
  0 <= t_po u < n_node /\ 0 <= t_level u <= max_level /\ 0 <= t_height u <= max_level /\
  t_nchild u = zlen (t_children u) /\ t_nchild u <= mc /\ box_init pt_dim (t_box u) /\
  forall c, In c (t_children u) -> 0 <= t_po c < n_node.

Lemma mc_ge1 : 1 <= mc.
Proof. unfold mc. rewrite Z.shiftl_1_l. pose proof (Z.pow_pos_nonneg 2 pt_dim ltac:(lia) ltac:(lia)). lia. Qed.

Lemma store_node_spec (a : tarrays F) l1 u : ainv a l1 -> node_fit u ->
  (forall v, In v l1 -> t_po v <> t_po u /\ forall c c', In c (t_children v) -> In c' (t_children u) -> t_po c <> t_po c') ->
  (forall c c' k k', getz (t_children u) k = Some c -> getz (t_children u) k' = Some c' -> t_po c = t_po c' -> k = k') ->
  (forall r, 0 <= r <= max_level -> zcount (fun v => t_level v =? r) (l1 ++ [u]) <= n_leaf /\ zcount (fun v => t_height v =? r) (l1 ++ [u]) <= n_leaf) ->
  (forall v, In v l1 -> node_fit v) ->
  exists a', store_node pt_dim mc n_leaf u a = Some a' /\ ainv a' (l1 ++ [u]).
Proof.
  intros (Sz & R & RL & RH) (F1 & F2 & F3 & F4 & F5 & F6 & F7) Hdis Hinj Hcnt Hfit.
  destruct Sz as (S1 & S2 & S3 & S4 & S5 & S6 & S7). pose proof mc_ge1 as Hmc. set (i := t_po u) in *.
  assert (Hmono : forall g r, zcount (fun v => g v =? r) l1 <= zcount (fun v => g v =? r) (l1 ++ [u])).
  { intros g r. rewrite zcount_app. pose proof (zcount_nonneg (fun v => g v =? r) [u]). lia. }
  destruct (rows_push t_level _ _ l1 u RL F2) as (cl & ltb & lcn & L1 & L2 & L3 & L4).
  { apply Hcnt; auto. } { intros r Hr. destruct (Hcnt r Hr) as [X _]. specialize (Hmono t_level r). lia. }
  destruct (rows_push t_height _ _ l1 u RH F3) as (ch & htb & hcn & H1 & H2 & H3 & H4).
  { apply Hcnt; auto. } { intros r Hr. destruct (Hcnt r Hr) as [_ X]. specialize (Hmono t_height r). lia. }
  fold i in L2, H2. unfold store_node. cbv zeta. fold i.
  (* children and parents *)
  match goal with |- context [zfor 0 (t_nchild u) ?b ?init] =>
    destruct (zfor_inv (fun k (x : mem Z * mem Z) => let '(cx, px) := x in
      zlen cx = n_node * mc /\ zlen px = n_node /\
      (forall k' c, 0 <= k' < k -> getz (t_children u) k' = Some c -> ld cx (i * mc + k') = Some (t_po c) /\ ld px (t_po c) = Some i) /\
      (forall q, ~ (i * mc <= q < i * mc + mc) -> ld cx q = ld (a_children a) q) /\
      (forall q, (forall c, In c (t_children u) -> t_po c <> q) -> ld px q = ld (a_parent a) q)) 0 (t_nchild u) b init)
      as ([cx px] & E1 & P1 & P2 & P3 & P4 & P5) end.
  { rewrite F4. apply zlen_nonneg. }
  { split; auto. split; auto. split; [intros; lia|]. split; auto. }
  { intros k [cx px] Hk (P1 & P2 & P3 & P4 & P5). destruct (getz_in (t_children u) k) as [c Ec]; [lia|]. rewrite Ec. cbn [bind].
    sto cx' Ecx. { rewrite P1. nia. }
    pose proof (F7 c (getz_In _ _ _ Ec)) as Fc. sto px' Epx. { lia. }
    eexists. split; [reflexivity|]. cbn beta iota. rewrite (st_zlen _ _ _ _ Ecx), (st_zlen _ _ _ _ Epx).
    split; auto. split; auto. split; [|split].
    - intros k' c' Hk' Ec'. rewrite (ld_st _ _ _ _ _ Ecx), (ld_st _ _ _ _ _ Epx). destruct (Z.eq_dec k' k) as [->|Hn].
      + rewrite Ec in Ec'. injection Ec' as <-. rewrite !Z.eqb_refl. auto.
      + destruct (P3 k' c' ltac:(lia) Ec') as [Q1 Q2]. destruct (Z.eqb_spec (i * mc + k) (i * mc + k')); [lia|].
        destruct (Z.eqb_spec (t_po c) (t_po c')); auto.
    - intros q Hq. rewrite (ld_st _ _ _ _ _ Ecx). destruct (Z.eqb_spec (i * mc + k) q); [lia|auto].
    - intros q Hq. rewrite (ld_st _ _ _ _ _ Epx). destruct (Z.eqb_spec (t_po c) q); [|auto]. exfalso. apply (Hq c); auto. eapply getz_In; eauto. }
  rewrite E1. cbn [bind].
  match goal with |- context [zfor (t_nchild u) mc ?b cx] =>
    destruct (zfor_inv (fun k (x : mem Z) => zlen x = n_node * mc /\
      (forall k', t_nchild u <= k' < k -> ld x (i * mc + k') = Some (-1)) /\
      (forall q, ~ (i * mc + t_nchild u <= q < i * mc + mc) -> ld x q = ld cx q)) (t_nchild u) mc b cx) as (cx2 & E2 & Q1 & Q2 & Q3) end.
  { lia. } { split; auto. split; auto. intros; lia. }
  { intros k x Hk (Q1 & Q2 & Q3). pose proof (zlen_nonneg (t_children u)).
    destruct (st_Some x (i * mc + k) (-1)) as [x' Ex]. { rewrite Q1. nia. } exists x'. split; auto.
    split; [rewrite (st_zlen _ _ _ _ Ex); auto|]. split.
    - intros k' Hk'. rewrite (ld_st _ _ _ _ _ Ex). destruct (Z.eqb_spec (i * mc + k) (i * mc + k')); auto. apply Q2. lia.
    - intros q Hq. rewrite (ld_st _ _ _ _ _ Ex). destruct (Z.eqb_spec (i * mc + k) q); [lia|auto]. }
  rewrite E2. cbn [bind]. pose proof (zlen_nonneg (t_children u)) as Hnc.
  sto cl1 Ec1. { lia. } sto cl2 Ec2. { rewrite (st_zlen _ _ _ _ Ec1). lia. }
  destruct (mcpy_spec (a_box a) (i * (pt_dim * 2)) (t_box u) 0 (pt_dim * 2)) as (bx & Eb & Zb & Gb); try lia; try nia.
  { destruct F6 as [Zb _]. lia. }
  rewrite Eb. cbn [bind]. sto lv Elv. { lia. } sto he Ehe. { lia. } sto nc Enc. { lia. }
  rewrite L1. cbn [bind]. rewrite H1. cbn [bind]. rewrite L2. cbn [bind]. rewrite H2. cbn [bind]. rewrite L3. cbn [bind]. rewrite H3. cbn [bind].
  eexists. split; [reflexivity|]. split; [|split; [|split; auto]].
  - unfold asizes; cbn. rewrite (st_zlen _ _ _ _ Ec2), (st_zlen _ _ _ _ Ec1), (st_zlen _ _ _ _ Elv), (st_zlen _ _ _ _ Ehe), (st_zlen _ _ _ _ Enc).
    repeat split; auto; lia.
  - intros v Hv. apply in_app_iff in Hv as [Hv|[<-|[]]].
    + destruct (R v Hv) as ((D1 & D2 & D3 & D4 & D5) & D6 & D7 & D8). destruct (Hdis v Hv) as [Hpo Hch]. set (q := t_po v) in *.
      destruct (Hfit v Hv) as (W1 & W2 & W3 & W4 & W5 & W6 & W7). fold q in W1.
      unfold rec_ok, node_data; cbn. fold q. split; [|split; [|split]].
      * rewrite !(ld_st _ _ _ _ _ Ec2), !(ld_st _ _ _ _ _ Ec1), (ld_st _ _ _ _ _ Elv), (ld_st _ _ _ _ _ Ehe), (ld_st _ _ _ _ _ Enc).
        repeat match goal with |- context [Z.eqb ?x ?y] => destruct (Z.eqb_spec x y); [lia|] end. auto.
      * intros k c Ec. destruct (D6 k c Ec) as [X1 X2]. pose proof (getz_range _ _ _ Ec).
        assert (~ (i * mc <= q * mc + k < i * mc + mc)) by nia.
        rewrite Q3 by lia. rewrite P4 by auto. split; auto. rewrite P5; auto.
        intros c' Hc'. pose proof (Hch c c' (getz_In _ _ _ Ec) Hc'). auto.
      * intros k Hk. pose proof (zlen_nonneg (t_children v)). assert (~ (i * mc <= q * mc + k < i * mc + mc)) by nia.
        rewrite Q3 by lia. rewrite P4 by auto. auto.
      * intros k Hk. rewrite Gb. destruct (Z.leb_spec (i * (pt_dim * 2)) (q * (pt_dim * 2) + k)), (Z.ltb_spec (q * (pt_dim * 2) + k) (i * (pt_dim * 2) + pt_dim * 2)); simpl; auto.
        exfalso. apply Hpo. nia.
    + unfold rec_ok, node_data; cbn. fold i. split; [|split; [|split]].
      * rewrite !(ld_st _ _ _ _ _ Ec2), !(ld_st _ _ _ _ _ Ec1), (ld_st _ _ _ _ _ Elv), (ld_st _ _ _ _ _ Ehe), (ld_st _ _ _ _ _ Enc), !Z.eqb_refl.
        destruct (Z.eqb_spec (i * 2 + 1) (i * 2 + 0)); [lia|]. auto.
      * intros k c Ec. pose proof (getz_range _ _ _ Ec). destruct (P3 k c ltac:(lia) Ec) as [X1 X2]. rewrite Q3 by lia. auto.
      * intros k Hk. apply Q2. lia.
      * intros k Hk. rewrite Gb. destruct (Z.leb_spec (i * (pt_dim * 2)) (i * (pt_dim * 2) + k)), (Z.ltb_spec (i * (pt_dim * 2) + k) (i * (pt_dim * 2) + pt_dim * 2)); simpl; try lia.
        f_equal. lia.
Qed.

End Arrays.
