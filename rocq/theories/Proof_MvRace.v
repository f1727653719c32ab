(** The matvec at access granularity is race free and computes the product. *)
From Coq Require Import ZArith List Lia Bool Permutation.
From Verif Require Import Base Mem Num CRing Conc Race Model_Utils Spec_Utils Proof_Utils Model_Dense Spec_Dense Model_Partition Spec_Tree Model_Matvec Spec_Matvec Proof_MvTree Proof_MvMid Proof_MvTop Proof_Dense3 Proof_MvFwd Proof_MvBwd Model_MvFine Proof_MvFine.
Import ListNotations.
Open Scope Z_scope.

Lemma FOP_getz {A} (Q : A -> A -> Prop) l : (forall i j a b, 0 <= i < j -> getz l i = Some a -> getz l j = Some b -> Q a b) -> ForallOrdPairs Q l.
Proof.
  induction l as [|x l IH]; intros H; constructor.
  - rewrite Forall_forall. intros y Hy. apply In_getz in Hy as (k & Hk). pose proof (getz_range _ _ _ Hk).
    apply (H 0 (k + 1)); [lia|reflexivity|]. rewrite getz_cons by lia. replace (k + 1 - 1) with k by lia. auto.
  - apply IH. intros i j a b Hij Ha Hb. apply (H (i + 1) (j + 1)); [lia| |]; rewrite getz_cons by lia; [replace (i + 1 - 1) with i by lia|replace (j + 1 - 1) with j by lia]; auto.
Qed.

(** Items are tagged with the number of their thread. *)
Definition tags {A} (ths : list (list (Z * A))) : Prop := forall t l x, getz ths t = Some l -> In x l -> fst x = t.

Lemma FOP_tags {A} (Q : (Z * A) -> (Z * A) -> Prop) ths : tags ths ->
  (forall x y, In x (concat ths) -> In y (concat ths) -> fst x <> fst y -> Q x y) ->
  ForallOrdPairs (fun t1 t2 => forall x y, In x t1 -> In y t2 -> Q x y) ths.
Proof.
  intros Ht HQ. apply FOP_getz. intros i j a b Hij Ha Hb x y Hx Hy. apply HQ.
  - apply in_concat. exists a. split; auto. eapply getz_In; eauto.
  - apply in_concat. exists b. split; auto. eapply getz_In; eauto.
  - rewrite (Ht _ _ _ Ha Hx), (Ht _ _ _ Hb Hy). lia.
Qed.

Lemma number_len {A} (l : list A) : length (number l) = length l.
Proof. unfold number. rewrite combine_length. unfold zrange. rewrite map_length, seq_length. unfold zlen. lia. Qed.
Lemma getz_number {A} (l : list A) t : getz (number l) t = option_map (fun x => (t, x)) (getz l t).
Proof.
  destruct (getz l t) as [x|] eqn:E; cbn [option_map].
  - assert (Hin : In (t, x) (number l)) by (now apply number_spec).
    pose proof (getz_range _ _ _ E) as Hr.
    assert (Hl : zlen (number l) = zlen l). { unfold zlen. now rewrite number_len. }
    destruct (getz_in (number l) t) as [[t' x'] E']; [lia|]. rewrite E'.
    unfold number in E'. clear Hin Hl.
    assert (G : forall (l : list A) lo t, 0 <= t < zlen l -> getz (combine (zrange lo (lo + zlen l)) l) t = option_map (fun x => (lo + t, x)) (getz l t)).
    { clear. induction l as [|a l IH]; intros lo t Ht; [zlia|]. rewrite zlen_cons in *. rewrite zrange_cons by lia. cbn [combine].
      match goal with |- context [zrange (lo + 1) ?x] => replace x with (lo + 1 + zlen l) by lia end. 
      destruct (Z.eq_dec t 0) as [->|]; [rewrite !getz_0; cbn [option_map]; do 2 f_equal; lia|]. rewrite !getz_cons by lia. rewrite IH by lia. destruct (getz l (t - 1)); cbn [option_map]; auto. do 2 f_equal. lia. }
    specialize (G l 0 t ltac:(lia)). rewrite Z.add_0_l in G. rewrite E', E in G. cbn [option_map] in G. rewrite G. reflexivity.
  - apply getz_None in E. apply getz_None. unfold zlen in *. rewrite number_len. auto.
Qed.

Lemma tags_tagged {A} (asg : list (list A)) : tags (tagged asg).
Proof.
  intros t l x Hl Hx. unfold tagged in Hl. rewrite getz_map, getz_number in Hl. destruct (getz asg t); [|discriminate].
  cbn [option_map] in Hl. injection Hl as <-. apply in_map_iff in Hx as (y & <- & _). reflexivity.
Qed.
Lemma tags_items blk asg : tags (thread_items blk asg).
Proof.
  intros t l x Hl Hx. unfold thread_items in Hl. rewrite getz_map, getz_number in Hl. destruct (getz asg t); [|discriminate].
  cbn [option_map] in Hl. injection Hl as <-. apply in_map_iff in Hx as (y & <- & _). reflexivity.
Qed.

Lemma concat_tagged {A} (asg : list (list A)) : map snd (concat (tagged asg)) = concat asg.
Proof.
  unfold tagged. rewrite concat_map, map_map. transitivity (concat (map snd (number asg))); [|now rewrite map_snd_number].
  f_equal. apply map_ext. intros [t js]. rewrite map_map. cbn [snd]. apply map_id.
Qed.
Lemma In_tagged {A} (asg : list (list A)) t x : In (t, x) (concat (tagged asg)) -> exists l, getz asg t = Some l /\ In x l.
Proof.
  intros H. apply in_concat in H as (l & Hl & Hx). apply In_getz in Hl as (k & Hk). 
  pose proof (tags_tagged _ _ _ _ Hk Hx) as E. cbn [fst] in E. subst k. unfold tagged in Hk. rewrite getz_map, getz_number in Hk.
  destruct (getz asg t) as [l0|]; [|discriminate]. cbn [option_map] in Hk. injection Hk as <-. apply in_map_iff in Hx as (y & E & Hy). injection E as ->. eauto.
Qed.
(** Different threads have different iterations. *)
Lemma tagged_distinct {A} (asg : list (list A)) x y : NoDup (concat asg) -> In x (concat (tagged asg)) -> In y (concat (tagged asg)) -> fst x <> fst y -> snd x <> snd y.
Proof.
  intros Hn. rewrite <- concat_tagged in Hn. intros Hx Hy Hne E. apply In_getz in Hx as (i & Hi). apply In_getz in Hy as (j & Hj).
  assert (i = j). 2:{ subst j. rewrite Hi in Hj. injection Hj as ->. auto. }
  assert (G : forall l : list A, NoDup l -> forall i j a, getz l i = Some a -> getz l j = Some a -> i = j).
  { clear. intros l Hl i j a Hi Hj. pose proof (getz_range _ _ _ Hi). pose proof (getz_range _ _ _ Hj). unfold getz in *.
    destruct (0 <=? i) eqn:?; [|discriminate]. destruct (0 <=? j) eqn:?; [|discriminate]. rewrite NoDup_nth_error in Hl.
    assert (Z.to_nat i = Z.to_nat j); [|lia]. apply Hl; [unfold zlen in *; lia|congruence]. }
  apply (G _ Hn i j (snd x)); rewrite getz_map; [rewrite Hi|rewrite Hj]; cbn [option_map]; congruence.
Qed.

Lemma safe_weaken (S : store) ths m (Q Q' : s_mem S -> Prop) : safe S ths m Q -> (forall m', Q m' -> Q' m') -> safe S ths m Q'.
Proof. intros H HQ ths' m' Hs. destruct (H ths' m' Hs) as (A & B & C). auto. Qed.

Section Races.
Context {F : num} {K : cring}.
Variable h : h2rep F K.
Hypothesis R : rep_ok h.
Notation t := (h_t h).
Notation nth := (h_nthread h).
Notation acc := (bool * mloc)%type.

(** From an atomic run of the items to the region. *)
Lemma par_ok {I} cells (item : I -> prog (mstore (K := K) cells) unit) (act_of : I -> act (mvst K)) (fp : I -> acc -> Prop) (Inv : mvst K -> Prop) ths s s' :
  (forall it s1 s2, In it (concat ths) -> Inv s1 -> act_of it s1 = Some s2 -> Inv s2 /\ runs (mstore cells) (fp it) (item it) s1 tt s2) ->
  ForallOrdPairs (fun t1 t2 => forall i1 i2, In i1 t1 -> In i2 t2 -> forall a b, fp i1 a -> fp i2 b -> ~ conflict (mstore (K := K) cells) a b) ths ->
  Inv s -> run (map act_of (concat ths)) s = Some s' ->
  (forall Q : mvst K -> Prop, Q s' -> par cells item ths s Q) /\ Inv s'.
Proof.
  intros H1 H2 H3 H4. destruct (@region_safe (mstore cells) I item act_of fp Inv ths s s' H1) as [A B]; auto.
  { clear -H2. induction H2 as [|x l Hx Hl IH]; constructor; auto. rewrite Forall_forall in *. intros y Hy i1 i2 a b I1 I2. eapply Hx; eauto. }
  split; auto. intros Q HQ. unfold par. eapply safe_weaken; [exact A|]. intros m' ->. auto.
Qed.

Lemma through_zfor (g : Z -> Z) (one : Z -> mvst K -> (mvst K -> Prop) -> Prop) body lo hi s s' (Q : mvst K -> Prop) :
  (forall k s s', lo <= k < hi -> body k s = Some s' -> forall Q : mvst K -> Prop, Q s' -> one (g k) s Q) ->
  zfor lo hi body s = Some s' -> Q s' -> through (map g (zrange lo hi)) one s Q.
Proof.
  intros Hb. destruct (Z_le_gt_dec hi lo).
  { rewrite zfor_empty by lia. intros E HQ. injection E as ->. rewrite zrange_empty by lia. exact HQ. }
  remember (Z.to_nat (hi - lo)) as n eqn:En. revert lo g0 En Hb s. induction n as [|n IH]; intros lo Hlo En Hb s E HQ; [lia|].
  rewrite zfor_step in E by lia. destruct (body lo s) as [s1|] eqn:E1; [|discriminate]. cbn [bind] in E.
  rewrite zrange_cons by lia. cbn [map through]. apply (Hb lo s s1); auto; [lia|].
  destruct (Z_le_gt_dec hi (lo + 1)).
  - rewrite zfor_empty in E by lia. injection E as ->. rewrite zrange_empty by lia. exact HQ.
  - apply (IH (lo + 1)); auto; try lia. intros; apply (Hb k s0 s'0); auto; lia.
Qed.

(** ** Facts about the tree *)
Lemma child_facts n c : 0 <= n < h_nnode h -> is_child h n c -> 0 <= c < h_nnode h /\ level h c = level h n + 1 /\ ld (a_parent t) c = Some n.
Proof.
  intros Hn (nc & k & En & Hk & Ec). rewrite (ld_nchild h R n Hn) in En. injection En as <-.
  destruct (child_at h R n k Hn Hk) as (E & Rc & _ & Lc). rewrite E in Ec. injection Ec as <-. split; auto. split; auto.
  destruct (node_at h R n Hn) as (s & e & hh & D & _).
  destruct (ct_children _ _ _ _ _ _ (ro_tree _ R) n _ _ _ _ _ Hn D ltac:(lia)) as (cs & Zc & Lcs & Tc & _).
  destruct (ro_dims _ R) as (_ & _ & _ & Dm & _). rewrite Dm, Lcs in E by lia. apply getz_In in E.
  clear -Tc E. revert s Tc E. induction cs as [|c cs IH]; intros s Tc E; [contradiction|]. cbn [tiles] in Tc.
  destruct Tc as (ce & hc & ncc & D & P & _ & _ & T). destruct E as [->|E]; eauto.
Qed.
Lemma level_node i j n : h_minlevel h <= i <= h_maxlevel h -> ld (a_level_nodes t) (i * h_nleaf h + j) = Some n -> forall nn, ld (a_level_n t) i = Some nn -> 0 <= j < nn ->
  0 <= n < h_nnode h /\ level h n = i.
Proof.
  intros Hi E nn Enn Hj. destruct (ro_dims _ R) as (_ & _ & _ & _ & _ & Dl).
  destruct (level_list h R i ltac:(lia)) as (ns & Zn & L & _ & Hin). rewrite Zn in Enn. injection Enn as <-.
  rewrite L in E by lia. apply Hin. eapply getz_In; eauto.
Qed.
Lemma level_node_inj i j j' n : h_minlevel h <= i <= h_maxlevel h -> forall nn, ld (a_level_n t) i = Some nn -> 0 <= j < nn -> 0 <= j' < nn ->
  ld (a_level_nodes t) (i * h_nleaf h + j) = Some n -> ld (a_level_nodes t) (i * h_nleaf h + j') = Some n -> j = j'.
Proof.
  intros Hi nn Enn Hj Hj' E E'. destruct (ro_dims _ R) as (_ & _ & _ & _ & _ & Dl).
  destruct (level_list h R i ltac:(lia)) as (ns & Zn & L & Hnd & Hin). rewrite Zn in Enn. injection Enn as <-.
  rewrite L in E, E' by lia. pose proof (getz_range _ _ _ E). pose proof (getz_range _ _ _ E'). unfold getz in *.
  destruct (0 <=? j) eqn:?; [|discriminate]. destruct (0 <=? j') eqn:?; [|discriminate]. rewrite NoDup_nth_error in Hnd.
  assert (Z.to_nat j = Z.to_nat j'); [|lia]. apply Hnd; [unfold zlen in *; lia|congruence].
Qed.
(** Two leaves never own the same point. *)
Lemma leaf_rows n n' p : 0 <= n < h_nnode h -> 0 <= n' < h_nnode h -> nchild h n = 0 -> nchild h n' = 0 ->
  mfirst h n <= p <= mlast h n -> mfirst h n' <= p <= mlast h n' -> n = n'.
Proof.
  intros Hn Hn' C C' Hp Hp'.
  destruct (node_at h R n Hn) as (s & e & hh & D & S1 & S2 & _ & _ & M1 & M2 & _).
  destruct (node_at h R n' Hn') as (s' & e' & hh' & D' & S1' & S2' & _ & _ & M1' & M2' & _).
  destruct (ro_dims _ R) as (_ & Dk & _).
  assert (H0 : forall m s e hh, 0 <= m < h_nnode h -> node_data t m s e (level h m) hh 0 -> hh = 0).
  { intros m s0 e0 h0 Hm Dm. destruct (ct_node _ _ _ _ _ _ (ro_tree _ R) m Hm) as (s1 & e1 & lv1 & h1 & nc1 & D1 & _ & _ & _ & _ & _ & Hz).
    destruct Dm as (A1 & A2 & A3 & A4 & A5). destruct D1 as (B1 & B2 & B3 & B4 & B5).
    assert (nc1 = 0) by congruence. assert (h1 = 0) by (apply Hz; auto). congruence. }
  rewrite C in D. rewrite C' in D'. pose proof (H0 _ _ _ _ Hn D). pose proof (H0 _ _ _ _ Hn' D'). subst hh hh'.
  set (q := p / h_kdim h).
  assert (Q1 : s <= q <= e). { rewrite M1, M2 in Hp. unfold q. split; [apply Z.div_le_lower_bound; lia|]. apply Z.lt_succ_r. apply Z.div_lt_upper_bound; lia. }
  assert (Q2 : s' <= q <= e'). { rewrite M1', M2' in Hp'. unfold q. split; [apply Z.div_le_lower_bound; lia|]. apply Z.lt_succ_r. apply Z.div_lt_upper_bound; lia. }
  destruct (ct_leaf_of_point _ _ _ _ _ _ (ro_tree _ R) q ltac:(lia)) as (i & _ & U).
  rewrite (U n), (U n'); auto; split; eauto 10.
Qed.

Lemma not_conflict_loc cells (a b : acc) : snd a <> snd b -> ~ conflict (mstore (K := K) cells) a b.
Proof. intros H [E _]. auto. Qed.
Lemma not_conflict_rd cells (a b : acc) : fst a = false -> fst b = false -> ~ conflict (mstore (K := K) cells) a b.
Proof. intros H1 H2 [_ [E|E]]; cbn in E; congruence. Qed.

(** ** The sweeps *)
Lemma level_par_ok (item : Z -> Z -> act (mvst K)) (itemf : Z -> Z -> prog (mstore false) unit) (fp : Z -> Z -> acc -> Prop) asg i n s s' :
  h_minlevel h <= i <= h_maxlevel h -> ld (a_level_n t) i = Some n -> omp_assign (Z.min n nth) n (asg i) ->
  (forall tid node s1 s2, 0 <= node < h_nnode h -> item tid node s1 = Some s2 -> runs (mstore false) (fp tid node) (itemf tid node) s1 tt s2) ->
  (forall t1 t2 n1 n2 a b, t1 <> t2 -> n1 <> n2 -> 0 <= n1 < h_nnode h -> 0 <= n2 < h_nnode h -> level h n1 = i -> level h n2 = i ->
     fp t1 n1 a -> fp t2 n2 b -> ~ conflict (mstore (K := K) false) a b) ->
  level_sweep h item (concat (tagged (asg i))) i s = Some s' ->
  forall Q : mvst K -> Prop, Q s' -> level_par h itemf asg i s Q.
Proof.
  intros Hi Hn (Za & Pa) Hit Hap Hrun. unfold level_par.
  assert (Hj : forall x, In x (concat (tagged (asg i))) -> 0 <= snd x < n).
  { intros x Hx. apply In_zrange. apply (Permutation_in _ Pa). rewrite <- concat_tagged. now apply in_map. }
  assert (Hnd : NoDup (concat (asg i))) by (eapply Permutation_NoDup; [symmetry; exact Pa|apply NoDup_zrange]).
  eapply (par_ok false _ (fun ev s => let '(tid, j) := ev in node <- ld (a_level_nodes t) (i * h_nleaf h + j); item tid node s)
    (fun ev a => exists node, ld (a_level_nodes t) (i * h_nleaf h + snd ev) = Some node /\ fp (fst ev) node a) (fun _ => True)); auto.
  - intros [tid j] s1 s2 Hx _ E. split; auto. cbn [fst snd]. binv1 E node En.
    eapply runs_weaken with (P := fp tid node).
    + eapply r_bind; [apply r_lift; reflexivity|]. apply Hit; [|exact E]. apply (level_node _ _ _ Hi En _ Hn (Hj _ Hx)).
    + intros a Ha. eauto.
  - apply FOP_tags; [apply tags_tagged|]. intros x y Hx Hy Hne a b (n1 & E1 & F1) (n2 & E2 & F2).
    pose proof (tagged_distinct _ _ _ Hnd Hx Hy Hne) as Hd. pose proof (Hj _ Hx) as Jx. pose proof (Hj _ Hy) as Jy.
    destruct (level_node _ _ _ Hi E1 _ Hn Jx) as [N1 L1]. destruct (level_node _ _ _ Hi E2 _ Hn Jy) as [N2 L2].
    apply (Hap (fst x) (fst y) n1 n2); auto. intros ->. apply Hd. eapply level_node_inj; eauto.
Qed.

Lemma fwd_apart (t1 t2 n1 n2 : Z) (a b : acc) (i : Z) : t1 <> t2 -> n1 <> n2 -> 0 <= n1 < h_nnode h -> 0 <= n2 < h_nnode h -> level h n1 = i -> level h n2 = i ->
  fp_fwd h n1 a -> fp_fwd h n2 b -> ~ conflict (mstore (K := K) false) a b.
Proof.
  intros _ Hne N1 N2 L1 L2 [Ea|[Fa Ca]] [Eb|[Fb Cb]].
  - apply not_conflict_loc. rewrite Ea, Eb. congruence.
  - apply not_conflict_loc. rewrite Ea. destruct Cb as [[i0 ->]|(c & Hc & ->)]; [discriminate|].
    destruct (child_facts _ _ N2 Hc) as (_ & Lc & _). intros E. injection E as ->. lia.
  - apply not_conflict_loc. rewrite Eb. destruct Ca as [[i0 ->]|(c & Hc & ->)]; [discriminate|].
    destruct (child_facts _ _ N1 Hc) as (_ & Lc & _). intros E. injection E as ->. lia.
  - now apply not_conflict_rd.
Qed.

Lemma bwd_apart (t1 t2 n1 n2 : Z) (a b : acc) (i : Z) : t1 <> t2 -> n1 <> n2 -> 0 <= n1 < h_nnode h -> 0 <= n2 < h_nnode h -> level h n1 = i -> level h n2 = i ->
  fp_bwd h t1 n1 a -> fp_bwd h t2 n2 b -> ~ conflict (mstore (K := K) false) a b.
Proof.
  intros Ht Hne N1 N2 L1 L2 Ha Hb.
  destruct Ha as [Ea|[->|[(c & Hc & Ea)|(Za & si & ei & p & Es & Ee & Hp & Ea)]]]; 
  destruct Hb as [Eb|[->|[(c' & Hc' & Eb)|(Zb & si' & ei' & p' & Es' & Ee' & Hp' & Eb)]]];
  try (apply not_conflict_loc; cbn [snd]; try rewrite Ea; try rewrite Eb; congruence).
  - apply not_conflict_loc. cbn [snd]. rewrite Eb. destruct (child_facts _ _ N2 Hc') as (_ & Lc & _). intros E. injection E as ->. lia.
  - apply not_conflict_loc. cbn [snd]. rewrite Ea. destruct (child_facts _ _ N1 Hc) as (_ & Lc & _). intros E. injection E as ->. lia.
  - apply not_conflict_loc. rewrite Ea, Eb. destruct (child_facts _ _ N1 Hc) as (_ & _ & P1). destruct (child_facts _ _ N2 Hc') as (_ & _ & P2).
    intros E. injection E as ->. congruence.
  - apply not_conflict_loc. rewrite Ea, Eb. intros E. injection E as ->. apply Hne.
    rewrite (ld_nchild h R) in Za, Zb by auto. injection Za as Za. injection Zb as Zb.
    replace (2 * n1) with (n1 * 2) in * by lia. replace (2 * n2) with (n2 * 2) in * by lia.
    rewrite (ld_mfirst h R) in Es, Es' by auto. rewrite (ld_mlast h R) in Ee, Ee' by auto.
    injection Es as <-. injection Ee as <-. injection Es' as <-. injection Ee' as <-.
    eapply leaf_rows; eauto.
Qed.

(** ** The schedule that runs one thread after the other *)
Definition sched_of (fc : choices) : schedule := Sched
  (fun i => concat (tagged (fc_fwd fc i))) (zrange 0 nth) (concat (thread_items (h_Bblk h) (fc_mid fc))) (concat (tagged (fc_sum fc)))
  (fun i => concat (tagged (fc_bwd fc i))) (concat (den_items h (fc_den0 fc) (fc_den1 fc))) (zrange 0 nth).

Lemma omp_assign_for n m asg : omp_assign n m asg -> omp_for n m (concat (tagged asg)).
Proof.
  intros [Z P]. split; [|now rewrite concat_tagged]. rewrite Forall_forall. intros [t0 x] Hx. apply In_tagged in Hx as (l & Hl & _).
  cbn [fst]. rewrite <- Z. eapply getz_range; eauto.
Qed.
Lemma sched_of_ok fc : choices_ok h fc -> schedule_ok h (sched_of fc).
Proof.
  intros C. constructor; cbn [sched_of sc_fwd sc_team sc_mid sc_sum sc_bwd sc_den sc_red].
  - intros i n Hi Hn. apply omp_assign_for. apply (co_fwd _ _ C); auto.
  - apply Permutation_refl.
  - exists (fc_mid fc). split; [apply (co_mid _ _ C)|apply inter_concat].
  - apply omp_assign_for. apply (co_sum _ _ C).
  - intros i n Hi Hn. apply omp_assign_for. apply (co_bwd _ _ C); auto.
  - exists (fc_den0 fc), (fc_den1 fc). split; [apply (co_den0 _ _ C)|]. split; [apply (co_den1 _ _ C)|apply inter_concat].
  - apply Permutation_refl.
Qed.

Lemma concat_team n : concat (team n) = zrange 0 n.
Proof. unfold team. induction (zrange 0 n); cbn [map concat app]; congruence. Qed.
Lemma FOP_team n (Q : Z -> Z -> Prop) : (forall t1 t2, 0 <= t1 < n -> 0 <= t2 < n -> t1 <> t2 -> Q t1 t2) ->
  ForallOrdPairs (fun l1 l2 => forall x y, In x l1 -> In y l2 -> Q x y) (team n).
Proof.
  intros H. apply FOP_getz. intros i j a b Hij Ha Hb x y Hx Hy. unfold team in Ha, Hb. rewrite getz_map in Ha, Hb.
  destruct (getz (zrange 0 n) i) as [u|] eqn:Eu; [|discriminate]. destruct (getz (zrange 0 n) j) as [v|] eqn:Ev; [|discriminate].
  cbn [option_map] in Ha, Hb. injection Ha as <-. injection Hb as <-. destruct Hx as [<-|[]]. destruct Hy as [<-|[]].
  pose proof (getz_range _ _ _ Eu) as Ru. pose proof (getz_range _ _ _ Ev) as Rv. 
  assert (0 <= n) by (destruct (Z_le_gt_dec 0 n); auto; rewrite zrange_empty in Ru by lia; zlia).
  rewrite zlen_zrange in Ru, Rv by lia. rewrite getz_zrange in Eu, Ev by lia. injection Eu as <-. injection Ev as <-. apply H; lia.
Qed.

Definition ncols (y1 : list (dmat K)) (n : Z) : Z := match getz y1 n with Some m => dm_ncol m | None => 0 end.
Lemma hdr_ncols y1 s : s_y1 s = Some y1 -> hdr_ok (ncols y1) s.
Proof. intros E y n m E' G. rewrite E in E'. injection E' as <-. unfold ncols. now rewrite G. Qed.

Lemma rows_apart (nc : Z -> Z) (t1 t2 n k : Z) : t1 <> t2 -> t1 * nc n <= k < t1 * nc n + nc n -> t2 * nc n <= k < t2 * nc n + nc n -> False.
Proof. intros. nia. Qed.
Lemma row_apart nc (t1 t2 : Z) a b : t1 <> t2 -> fp_row nc t1 a -> fp_row nc t2 b -> ~ conflict (mstore (K := K) true) a b.
Proof.
  intros Ht [[Fa (n & Ea)]|(n & k & Hk & Ea)] [[Fb (n' & Eb)]|(n' & k' & Hk' & Eb)].
  - now apply not_conflict_rd.
  - apply not_conflict_loc. congruence.
  - apply not_conflict_loc. congruence.
  - apply not_conflict_loc. rewrite Ea, Eb. intros E. injection E as -> ->. eapply rows_apart; eauto.
Qed.
Lemma mid_apart nc (t1 t2 : Z) a b : t1 <> t2 -> fp_mid nc t1 a -> fp_mid nc t2 b -> ~ conflict (mstore (K := K) true) a b.
Proof.
  intros Ht [Ea|[[Fa Ea]|(n & k & Hk & Ea)]] [Eb|[[Fb Eb]|(n' & k' & Hk' & Eb)]].
  all: try (now apply not_conflict_rd).
  all: apply not_conflict_loc; repeat match goal with H : _ \/ _ |- _ => destruct H | H : exists _, _ |- _ => destruct H end; try congruence.
  rewrite Ea, Eb. intros E. injection E as -> ->. eapply rows_apart; eauto.
Qed.
Lemma den_apart (t1 t2 : Z) a b : t1 <> t2 -> fp_den t1 a -> fp_den t2 b -> ~ conflict (mstore (K := K) false) a b.
Proof.
  intros Ht [Ea|[Fa [i Ea]]] [Eb|[Fb [i' Eb]]]; try (now apply not_conflict_rd); apply not_conflict_loc; congruence.
Qed.
Lemma red_apart (t1 t2 : Z) a b : 0 <= t1 < nth -> 0 <= t2 < nth -> t1 <> t2 -> 0 <= h_kms h -> fp_red h t1 a -> fp_red h t2 b -> ~ conflict (mstore (K := K) false) a b.
Proof.
  intros R1 R2 Ht Hk [(p1 & l1 & i1 & C1 & I1 & Ea)|[Fa [i1 Ea]]] [(p2 & l2 & i2 & C2 & I2 & Eb)|[Fb [i2 Eb]]]; try (now apply not_conflict_rd); apply not_conflict_loc; try congruence.
  rewrite Ea, Eb. intros E. injection E as ->. destruct (cb_tiles (h_kms h) nth Hk ltac:(lia)) as (_ & _ & D).
  destruct (Z_lt_ge_dec t1 t2).
  - specialize (D t1 t2 _ _ _ _ ltac:(lia) ltac:(lia) C1 C2). lia.
  - specialize (D t2 t1 _ _ _ _ ltac:(lia) ltac:(lia) C2 C1). lia.
Qed.

Lemma tags_den a0 a1 : tags (den_items h a0 a1).
Proof.
  intros t0 l x Hl Hx. unfold den_items in Hl. rewrite getz_map in Hl.
  destruct (getz (combine (thread_items (h_D0blk h) a0) (thread_items (h_D1blk h) a1)) t0) as [[l0 l1]|] eqn:E; [|discriminate].
  cbn [option_map] in Hl. injection Hl as <-.
  assert (G : forall A B (x : list A) (y : list B) t a b, getz (combine x y) t = Some (a, b) -> getz x t = Some a /\ getz y t = Some b).
  { clear. intros A B x y t a b E. pose proof (getz_range _ _ _ E) as Hr. unfold getz in *. destruct (0 <=? t); [|discriminate]. revert E. generalize (Z.to_nat t). clear. revert y.
    induction x as [|x0 x IH]; intros [|y0 y] [|n]; cbn; try discriminate; auto. intros E; injection E as -> ->; auto. }
  apply G in E as [E0 E1]. apply in_app_iff in Hx as [Hx|Hx]; apply in_map_iff in Hx as ([t' i] & <- & Hi); cbn [fst].
  - exact (tags_items _ _ _ _ _ E0 Hi).
  - exact (tags_items _ _ _ _ _ E1 Hi).
Qed.

Theorem matvec_fine_spec fc s x y (xf : Z -> K) : choices_ok h fc -> state_ok h s ->
  (forall j, 0 <= j < h_kms h -> ld x j = Some (xf j)) -> h_kms h <= zlen y ->
  matvec_fine h fc s x y (fun s' y' => matvec h (sched_of fc) s x y = Some (s', y')).
Proof.
  intros C S Hx Hy. pose proof (sched_of_ok _ C) as Sc. 
  destruct (matvec_spec h R _ s x y xf Sc S Hx Hy) as (s' & y' & E & _).
  destruct S as [S1 S2 [S3 S3'] [S4 S4'] S5 S6 S7].
  destruct (ro_pmt _ R) as (Pf & Pb & Pp).
  assert (Hk : 0 <= h_kms h) by (pose proof (zlen_nonneg (s_yT s)); lia).
  destruct (gather_vector_spec (h_kms h) (h_fwd h) x (s_px s) 0 0 xf (h_kms h)) as (px & Epx & Zpx & Gpx & _); auto; try lia.
  { intros i Hi. apply In_getz in Hi as (k & Hk'). pose proof (getz_range _ _ _ Hk') as Rk. destruct (Pp k ltac:(lia)) as (A & _).
    apply nthz_eq in Hk'. lia. }
  pose (xv := fun p => xf (nthz (h_fwd h) p)).
  assert (Hpx : forall p, 0 <= p < h_kms h -> ld px p = Some (xv p)) by (intros p Hp; specialize (Gpx p Hp); now rewrite Z.add_0_l in Gpx).
  destruct (reset_y_spec h (set_px s px)) as (ty & py & yT & E1 & O1 & O2 & O3 & O4); auto.
  rewrite E. unfold matvec in E. unfold matvec_fine. rewrite Epx in E |- *. cbn [bind] in E |- *. rewrite E1 in E |- *. cbn [bind after] in E |- *.
  match type of E with context [fwd_transform h _ ?s] => set (sa := s) in * end.
  destruct (fwd_transform_spec h R xv (fun i => concat (tagged (fc_fwd fc i))) sa) as (y0 & E2 & Z0 & F0 & G0); auto.
  { apply (so_fwd _ _ Sc). }
  cbn [sched_of sc_fwd sc_team sc_mid sc_sum sc_bwd sc_den sc_red] in E.
  rewrite E2 in E. cbn [bind] in E. 
  assert (Lv : forall i, h_minlevel h <= i <= h_maxlevel h -> exists n, ld (a_level_n t) i = Some n).
  { intros i Hi. destruct (ro_dims _ R) as (_ & _ & _ & _ & _ & Dl). destruct (level_list h R i ltac:(lia)) as (ns & Zn & _). eauto. }
  unfold fwd_transform in E2. cbv zeta in E2.
  eapply through_zfor; [|exact E2|].
  { intros k s1 s2 Hk1 Es. destruct (Lv (h_maxlevel h - k) ltac:(lia)) as [n Hn].
    eapply (level_par_ok (fun _ node s => fwd_node h node s) _ (fun _ => fp_fwd h)); [|exact Hn| | | |exact Es].
    - lia.
    - apply (co_fwd _ _ C); auto. lia.
    - intros tid node a1 a2 _ Ea. now apply fwd_node_runs.
    - intros t1 t2 n1 n2 a b. apply fwd_apart. }
  cbv beta.
  unfold intmd_mult in E. rewrite <- (concat_team nth) in E at 1.
  destruct (init_y1_spec h R (concat (team nth)) (set_y0 sa y0)) as (y1 & E3 & Z1 & F1 & W1 & A1 & V1); auto.
  { rewrite concat_team. apply Permutation_refl. }
  rewrite E3 in E. cbn [bind] in E. unfold init_y1 in E3.
  destruct (init_y1_shape h (set_y0 sa y0)) as [sb|] eqn:Eb; [|discriminate]. cbn [bind] in E3. cbn [after].
  (* zeroing *)
  assert (Hb : exists yb, s_y1 sb = Some yb).
  { unfold init_y1_shape in Eb. binv1 Eb yb Eyb. injection Eb as <-. cbn [set_y1 s_y1]. eauto. }
  destruct Hb as [yb Hb].
  destruct (par_ok true (init_y1_zero_f true h) (init_y1_zero h) (fp_row (ncols yb)) (hdr_ok (ncols yb)) (team nth) sb (set_y1 (set_y0 sa y0) y1)) as [P1 _]; auto.
  { intros tid s1 s2 _ I1 Et. now apply init_y1_zero_runs. }
  { apply FOP_team. intros t1 t2 _ _ Hne a b. now apply row_apart. }
  { now apply hdr_ncols. }
  apply P1. clear P1. set (sc := set_y1 (set_y0 sa y0) y1) in *.
  (* pairs *)
  binv1 E sd Ed. binv1 Ed se Ee. 
  destruct (par_ok true (fun '(tid, i) => mid_pair_f true h tid i) (fun ev => mid_pair h (fst ev) (snd ev)) (fun ev => fp_mid (ncols y1) (fst ev)) (hdr_ok (ncols y1)) (thread_items (h_Bblk h) (fc_mid fc)) sc se) as [P1 _]; auto.
  { intros [tid i] s1 s2 Hin I1 Et. cbn [fst snd] in *. apply mid_pair_runs; auto.
    intros node0 node1 l0 l1 nrow ncol Hp L0 L1 Hr Hc.
    destruct (ro_adm _ R i node0 node1 Hp) as (N0 & N1 & _ & Hmx). destruct (ro_B _ R i node0 node1 Hp) as (p & nr & nl & _ & B1 & B2 & -> & -> & _).
    rewrite (ld_level h R) in L0, L1 by auto. injection L0 as <-. injection L1 as <-. rewrite Hr in B1. rewrite Hc in B2. injection B1 as ->. injection B2 as ->.
    pose proof (cluster_range h R node0 N0). pose proof (cluster_range h R node1 N1). 
    assert (Hw : forall n, n = node0 \/ n = node1 -> 0 <= n < h_nnode h -> h_minlevel h <= level h n -> 1 <= rank h n /\ rank h n = ncols y1 n).
    { intros n Hn Rn Ln. destruct (W1 n Rn) as (m & Em & W). destruct (A1 i node0 node1 Hp n Hn Ln) as (m' & Em' & Am).
      rewrite Em in Em'. injection Em' as <-. destruct W as [W|(W & W' & _)]; [contradiction|]. unfold ncols. rewrite Em. lia. }
    split; [|split].
    - destruct (Z.leb_spec (level h node1) (level h node0)); [|lia]. destruct (Hw node0); auto; lia.
    - intros Hl. destruct (Z.leb_spec (level h node1) (level h node0)); [|lia]. apply Hw; auto; lia.
    - intros Hl. destruct (Z.leb_spec (level h node0) (level h node1)); [|lia]. apply Hw; auto; lia. }
  { apply FOP_tags; [apply tags_items|]. intros x1 x2 _ _ Hne a b. now apply mid_apart. }
  { now apply hdr_ncols. }
  apply P1. clear P1.
  (* summation *)
  destruct (par_ok false (fun '(_, i) => sum_y1_node_f false h i) (fun ev : Z * Z => sum_y1_node h (snd ev)) (fun ev => fp_obj (LY1 (snd ev))) (fun _ => True) (tagged (fc_sum fc)) se sd) as [P1 _]; auto.
  { intros [tid i] s1 s2 Hin I1 Et. cbn [fst snd] in *. split; auto. now apply sum_y1_node_runs. }
  { apply FOP_tags; [apply tags_tagged|]. intros x1 x2 Hx1 Hx2 Hne a b Ha Hb'. apply not_conflict_loc. unfold fp_obj in Ha, Hb'. rewrite Ha, Hb'.
    intros Q. injection Q as Q. revert Q. eapply tagged_distinct; eauto. eapply Permutation_NoDup; [symmetry; apply (proj2 (co_sum _ _ C))|apply NoDup_zrange]. }
  apply P1. clear P1.
  (* backward *)
  binv1 E sf Ef. unfold bwd_transform in Ef.
  rewrite <- (map_id (zrange (h_minlevel h) (h_maxlevel h + 1))).
  eapply through_zfor; [|exact Ef|].
  { intros k s1 s2 Hk1 Es. destruct (Lv k ltac:(lia)) as [n Hn].
    eapply (level_par_ok (bwd_node h) _ (fp_bwd h)); [|exact Hn| | | |exact Es].
    - lia.
    - apply (co_bwd _ _ C); auto. lia.
    - intros tid node a1 a2 _ Ea. now apply bwd_node_runs.
    - intros t1 t2 n1 n2 a b. apply bwd_apart. }
  cbv beta.
  (* dense *)
  binv1 E sg Eg. unfold dense_mult in Eg.
  destruct (par_ok false (fun '(tid, (isoff, i)) => if (isoff : bool) then dense_off_f false h tid i else dense_diag_f false h tid i)
    (fun (ev : Z * (bool * Z)) s => let '(tid, (isoff, i)) := ev in if (isoff : bool) then dense_off h tid i s else dense_diag h tid i s)
    (fun ev => fp_den (fst ev)) (fun _ => True) (den_items h (fc_den0 fc) (fc_den1 fc)) sf sg) as [P1 _]; [| |exact I|exact Eg|].
  { intros [tid [isoff i]] s1 s2 Hin I1 Et. cbn [fst snd] in *. split; auto. destruct isoff.
    - apply dense_off_runs; auto. intros n Hn. unfold dense_off in Et. binv1 Et nn En. destruct nn as [node0 node1].
      destruct (ro_D _ R i node0 node1 En) as (p & _ & D1 & _). rewrite Hn in D1. injection D1 as ->.
      pose proof (cluster_range h R node0 (proj1 (ro_inadm _ R _ _ _ En))). lia.
    - now apply dense_diag_runs. }
  { apply FOP_tags; [apply tags_den|]. intros x1 x2 _ _ Hne a b. now apply den_apart. }
  apply P1. clear P1. 
  (* reduction *)
  binv1 E sh Eh. binv1 E yh Eyh. injection E as <- <-.
  rewrite <- (concat_team nth) in Eh.
  destruct (par_ok false (reduce_y_f false h) (reduce_y h) (fp_red h) (fun _ => True) (team nth) sg sh) as [P1 _]; auto.
  { intros tid s1 s2 _ I1 Et. split; auto. now apply reduce_y_runs. }
  { apply FOP_team. intros t1 t2 T1 T2 Hne a b. now apply red_apart. }
  apply P1. rewrite Eyh. reflexivity.
Qed.
End Races.

(** ** Weakening the postcondition *)
Section Mono.
Context {F : num} {K : cring}.
Lemma par_mono {I} cells (item : I -> prog (mstore cells) unit) ths s (Q Q' : mvst K -> Prop) :
  (forall s', Q s' -> Q' s') -> par cells item ths s Q -> par cells item ths s Q'.
Proof. intros H P. unfold par in *. eapply safe_weaken; eauto. Qed.
Lemma through_mono {A} (one : A -> mvst K -> (mvst K -> Prop) -> Prop) :
  (forall a s (Q Q' : mvst K -> Prop), (forall s', Q s' -> Q' s') -> one a s Q -> one a s Q') ->
  forall l s (Q Q' : mvst K -> Prop), (forall s', Q s' -> Q' s') -> through l one s Q -> through l one s Q'.
Proof. intros H. induction l as [|a l IH]; intros s Q Q' HQ; cbn [through]; auto. apply H. intros s'. now apply IH. Qed.
Lemma after_mono (o : option (mvst K)) (Q Q' : mvst K -> Prop) : (forall s', Q s' -> Q' s') -> after o Q -> after o Q'.
Proof. destruct o; cbn; auto. Qed.
Lemma matvec_fine_mono (h : h2rep F K) fc s x y (Q Q' : mvst K -> mem K -> Prop) : (forall s' y', Q s' y' -> Q' s' y') ->
  matvec_fine h fc s x y Q -> matvec_fine h fc s x y Q'.
Proof.
  intros HQ. unfold matvec_fine. apply after_mono. intros s1. apply through_mono; [intros a s0 A B; unfold level_par; apply par_mono|]. intros s2.
  apply after_mono. intros s3. do 3 (apply par_mono; intros ?). apply through_mono; [intros a s0 A B; unfold level_par; apply par_mono|]. intros s7.
  do 2 (apply par_mono; intros ?). destruct (gather_vector_elements _ _ _ _ _ _); auto.
Qed.
End Mono.
