(** Proofs about the block partition: the callers of the recursion. *)
From Coq Require Import ZArith QArith List Lia Bool.
From Verif Require Import Base Mem Num Model_Partition Spec_Tree Spec_Partition Proof_Partition Proof_BuildTree Model_Pairs Spec_Pairs Spec_Utils Proof_Utils Proof_Pairs.
Import ListNotations.
Open Scope Z_scope.

Section Box.
Context {F : num}.

Lemma check_box_spec (b0 b1 : mem F) o0 o1 pt_dim alpha : 0 <= pt_dim ->
  (forall k, 0 <= k < pt_dim * 2 -> exists v, ld b0 (o0 + k) = Some v) ->
  (forall k, 0 <= k < pt_dim * 2 -> exists v, ld b1 (o1 + k) = Some v) ->
  exists b, check_box_admissible b0 o0 b1 o1 pt_dim alpha = Some b /\
    (b = true <-> exists j c0 w0 c1 w1, 0 <= j < pt_dim /\
       ld b0 (o0 + j) = Some c0 /\ ld b0 (o0 + (pt_dim + j)) = Some w0 /\
       ld b1 (o1 + j) = Some c1 /\ ld b1 (o1 + (pt_dim + j)) = Some w1 /\
       separated alpha c0 w0 c1 w1 = true).
Proof.
  intros Hd H0 H1. unfold check_box_admissible.
  destruct (zfor_inv (fun i (b : bool) => b = true <-> exists j c0 w0 c1 w1, 0 <= j < i /\
       ld b0 (o0 + j) = Some c0 /\ ld b0 (o0 + (pt_dim + j)) = Some w0 /\
       ld b1 (o1 + j) = Some c1 /\ ld b1 (o1 + (pt_dim + j)) = Some w1 /\
       separated alpha c0 w0 c1 w1 = true) 0 pt_dim (fun i (adm : bool) => if adm then Some true else
    r0 <- ld b0 (o0 + (pt_dim + i));
    r1 <- ld b1 (o1 + (pt_dim + i));
    x0 <- ld b0 (o0 + i);
    x1 <- ld b1 (o1 + i);
    let c0 := nadd x0 (nmul (nlit (1#2)) r0) in
    let c1 := nadd x1 (nmul (nlit (1#2)) r1) in
    let min_r := nmin r0 r1 in
    let dist := nabs (nsub c0 c1) in
    Some (nle (nadd (nmul alpha min_r) (nmul (nlit (1#2)) (nadd r0 r1))) dist)) false Hd) as (b & E & Hb).
  - split; [discriminate|]. intros (j & ? & ? & ? & ? & ? & _). lia.
  - intros i b Hi Hb. destruct b.
    + exists true. split; [auto|]. split; [|auto]. intros _. destruct (proj1 Hb eq_refl) as (j & c0 & w0 & c1 & w1 & ? & ?).
      exists j, c0, w0, c1, w1. split; [lia|auto].
    + destruct (H0 (pt_dim + i) ltac:(lia)) as (w0 & E1). destruct (H1 (pt_dim + i) ltac:(lia)) as (w1 & E2).
      destruct (H0 i ltac:(lia)) as (c0 & E3). destruct (H1 i ltac:(lia)) as (c1 & E4).
      rewrite E1, E2, E3, E4. cbn [bind]. eexists. split; [reflexivity|]. fold (separated alpha c0 w0 c1 w1). split.
      * intros S. exists i, c0, w0, c1, w1. split; [lia|auto].
      * intros (j & d0 & v0 & d1 & v1 & Hj & X1 & X2 & X3 & X4 & S). destruct (Z.eq_dec j i) as [->|].
        -- congruence.
        -- assert (false = true); [|discriminate]. apply Hb. exists j, d0, v0, d1, v1. split; [lia|auto].
  - exists b. auto.
Qed.
End Box.

Section Top.
Context {F : num}.
Variables (pt_dim n_point n_node max_level n_leaf : Z) (a : tarrays F).
Hypothesis CT : cluster_tree pt_dim n_point n_node max_level n_leaf a.
Hypothesis Hpd : 1 <= pt_dim.
Hypothesis BX : boxes_set pt_dim n_node a.

Lemma adm_test_spec alpha n0 n1 : 0 <= n0 < n_node -> 0 <= n1 < n_node ->
  exists b, adm_test pt_dim alpha 0 a n0 n1 = Some b /\ (b = true <-> boxes_admissible pt_dim alpha a n0 n1).
Proof.
  intros H0 H1. unfold adm_test.
  destruct (ct_node _ _ _ _ _ _ CT n0 H0) as (s & e & l0 & h & nc & (_ & _ & E0 & _) & _ & _ & L0 & _).
  destruct (ct_node _ _ _ _ _ _ CT n1 H1) as (s' & e' & l1 & h' & nc' & (_ & _ & E1 & _) & _ & _ & L1 & _).
  rewrite E0, E1. cbn [bind].
  destruct (check_box_spec (a_box a) (a_box a) (n0 * pt_dim * 2) (n1 * pt_dim * 2) pt_dim alpha) as (b & Eb & Hb); [lia| | |].
  { intros k Hk. rewrite <- Z.mul_assoc. apply BX; auto. } { intros k Hk. rewrite <- Z.mul_assoc. apply BX; auto. }
  rewrite Eb. cbn [bind]. replace (0 <=? l0) with true by lia. replace (0 <=? l1) with true by lia. rewrite !andb_true_r.
  exists b. split; [auto|]. rewrite Hb. unfold boxes_admissible. rewrite <- !Z.mul_assoc. reflexivity.
Qed.

(** What is recorded. *)
Lemma record_spec evs : (forall ev, In ev evs -> exists l0 l1, ld (a_level a) (fst (snd ev)) = Some l0 /\ ld (a_level a) (snd (snd ev)) = Some l1) ->
  forall ps, exists m, record_pairs (a_level a) evs ps =
    Some (Pairs (ps_adm ps ++ map snd (filter fst evs)) (ps_inadm ps ++ map snd (filter (fun ev => negb (fst ev)) evs)) m) /\
    m <= ps_min_level ps /\
    (forall ev l0 l1, In ev evs -> fst ev = true -> ld (a_level a) (fst (snd ev)) = Some l0 -> ld (a_level a) (snd (snd ev)) = Some l1 -> m <= Z.max l0 l1) /\
    (m = ps_min_level ps \/ exists ev l0 l1, In ev evs /\ fst ev = true /\ ld (a_level a) (fst (snd ev)) = Some l0 /\ ld (a_level a) (snd (snd ev)) = Some l1 /\ m = Z.max l0 l1).
Proof.
  induction evs as [|[b [n0 n1]] evs IH]; intros H ps.
  - exists (ps_min_level ps). simpl. rewrite !app_nil_r. destruct ps. split; [auto|]. split; [simpl; lia|]. split; [easy|auto].
  - destruct (H (b, (n0, n1)) (or_introl eq_refl)) as (l0 & l1 & E0 & E1). cbn [fst snd] in E0, E1. cbn [record_pairs record_pair].
    assert (H' : forall ev, In ev evs -> exists l0 l1, ld (a_level a) (fst (snd ev)) = Some l0 /\ ld (a_level a) (snd (snd ev)) = Some l1) by (intros; apply H; now right).
    destruct b.
    + rewrite E0, E1. cbn [bind].
      destruct (IH H' (Pairs (ps_adm ps ++ [(n0, n1)]) (ps_inadm ps) (if ps_min_level ps <? (if l1 <? l0 then l0 else l1) then ps_min_level ps else if l1 <? l0 then l0 else l1))) as (m & Em & M1 & M2 & M3).
      rewrite Em. cbn [ps_adm ps_inadm ps_min_level filter map fst snd negb] in *. rewrite <- app_assoc. exists m. split; [auto|].
      assert (Hm : (if l1 <? l0 then l0 else l1) = Z.max l0 l1) by (destruct (Z.ltb_spec l1 l0); lia). rewrite Hm in *.
      assert (Hm2 : (if ps_min_level ps <? Z.max l0 l1 then ps_min_level ps else Z.max l0 l1) = Z.min (ps_min_level ps) (Z.max l0 l1)) by (destruct (Z.ltb_spec (ps_min_level ps) (Z.max l0 l1)); lia).
      rewrite Hm2 in *. split; [lia|]. split.
      * intros ev k0 k1 [<-|Hin] Hb X0 X1; cbn [fst snd] in *; [|eauto]. replace k0 with l0 by congruence. replace k1 with l1 by congruence. lia.
      * destruct M3 as [M3|(ev & k0 & k1 & ? & ? & ? & ? & ?)].
        -- destruct (Z.min_spec (ps_min_level ps) (Z.max l0 l1)) as [[? X]|[? X]]; [left; lia|]. right. exists (true, (n0, n1)), l0, l1. cbn [fst snd]. repeat split; auto; [now left|lia].
        -- right. exists ev, k0, k1. repeat split; auto. now right.
    + cbn [bind]. destruct (IH H' (Pairs (ps_adm ps) (ps_inadm ps ++ [(n0, n1)]) (ps_min_level ps))) as (m & Em & M1 & M2 & M3).
      rewrite Em. cbn [ps_adm ps_inadm ps_min_level filter map fst snd negb] in *. rewrite <- app_assoc. exists m. split; [auto|].
      split; [lia|]. split.
      * intros ev k0 k1 [<-|Hin] Hb X0 X1; cbn [fst snd] in *; [discriminate|eauto].
      * destruct M3 as [M3|(ev & k0 & k1 & ? & ? & ? & ? & ?)]; [now left|]. right. exists ev, k0, k1. repeat split; auto. now right.
Qed.

Lemma coverage_split evs p q : coverage a (map snd (filter fst evs)) p q + coverage a (map snd (filter (fun ev : bool * (Z * Z) => negb (fst ev)) evs)) p q = cov a evs (p, q).
Proof.
  induction evs as [|[b [n0 n1]] evs IH]; [reflexivity|]. unfold coverage, cov in *. rewrite zcount_cons. cbn [fst snd filter negb] in *.
  destruct b; cbn [negb map]; rewrite zcount_cons; cbn [fst snd]; lia.
Qed.

Lemma shiftl_pow : Z.shiftl 1 pt_dim = 2 ^ pt_dim.
Proof. rewrite Z.shiftl_mul_pow2 by lia. lia. Qed.

Lemma root_node : 0 <= n_node - 1 < n_node.
Proof. destruct (ct_root _ _ _ _ _ _ CT). lia. Qed.

Lemma root_owns p : 0 <= p < n_point -> owns a (n_node - 1) p = true.
Proof. intros Hp. destruct (ct_root _ _ _ _ _ _ CT) as (_ & _ & nc & D). rewrite (owns_data a _ _ _ _ _ _ p D). lia. Qed.

(** Everything about one run. *)
Lemma pairs_spec alpha fuel : 2 * n_node <= Z.of_nat fuel ->
  exists evs ps, calc_reduced_adm_pairs fuel pt_dim alpha 0 n_node max_level a = Some ps /\
    walk (a_children a) (a_nchild a) (2 ^ pt_dim) true (adm_test pt_dim alpha 0 a) fuel (n_node - 1) (n_node - 1) = Some evs /\
    ps_adm ps = map snd (filter fst evs) /\ ps_inadm ps = map snd (filter (fun ev : bool * (Z * Z) => negb (fst ev)) evs) /\
    (forall ev, In ev evs -> ev_ok n_node a true (adm_test pt_dim alpha 0 a) ev) /\
    (forall p q, 0 <= p < n_point -> 0 <= q < n_point -> same_leaf a n_node p q -> cov a evs (p, q) + cov a evs (q, p) = 0) /\
    (forall p q, 0 <= p < n_point -> 0 <= q < n_point -> ~ same_leaf a n_node p q -> cov a evs (p, q) + cov a evs (q, p) = 1) /\
    ps_min_level ps <= max_level /\
    (forall n0 n1 l0 l1, In (n0, n1) (ps_adm ps) -> ld (a_level a) n0 = Some l0 -> ld (a_level a) n1 = Some l1 -> ps_min_level ps <= Z.max l0 l1) /\
    (ps_min_level ps = max_level \/ exists n0 n1 l0 l1, In (n0, n1) (ps_adm ps) /\ ld (a_level a) n0 = Some l0 /\ ld (a_level a) n1 = Some l1 /\ ps_min_level ps = Z.max l0 l1).
Proof.
  intros Hf. pose proof root_node as Hr.
  destruct (walk_self pt_dim n_point n_node max_level n_leaf a CT true (adm_test pt_dim alpha 0 a)) with (fuel := fuel) (n := n_node - 1) as (evs & Ew & W1 & W2 & W3); auto.
  { intros n0 n1 H0 H1. destruct (adm_test_spec alpha n0 n1 H0 H1) as (b & E & _). eauto. }
  { lia. }
  unfold calc_reduced_adm_pairs. rewrite shiftl_pow. rewrite Ew. cbn [bind].
  destruct (record_spec evs) with (ps := Pairs [] [] max_level) as (m & Em & M1 & M2 & M3).
  { intros [b [n0 n1]] Hin. destruct (W1 _ Hin) as (_ & _ & (l0 & l1 & E0 & E1 & _) & _). exists l0, l1. auto. }
  rewrite Em. cbn [ps_adm ps_inadm ps_min_level app] in *. exists evs. eexists. split; [reflexivity|]. cbn [ps_adm ps_inadm ps_min_level].
  split; [auto|]. split; [auto|]. split; [auto|]. split; [auto|]. split; [|split; [|split; [|split]]].
  - intros p q Hp Hq Hs. apply (W2 (p, q)); auto. split; auto.
  - intros p q Hp Hq Hs. change (scov a evs (p, q) = 1). rewrite (W3 (p, q)) by (auto; split; auto). cbn [fst snd]. now rewrite !root_owns.
  - auto.
  - intros n0 n1 l0 l1 Hin E0 E1. apply in_map_iff in Hin as ([b x] & Hx & Hin). cbn [snd] in Hx. subst x. apply filter_In in Hin as [Hin Hb]. eapply M2; eauto.
  - destruct M3 as [M3|([b [n0 n1]] & l0 & l1 & Hin & Hb & E0 & E1 & Em')]; [now left|]. right. exists n0, n1, l0, l1. cbn [fst snd] in *. split; [|auto].
    apply in_map_iff. exists (b, (n0, n1)). split; [auto|]. apply filter_In. auto.
Qed.

(** Levels of nodes. *)
Lemma level_pos i : 0 <= i < n_node - 1 -> exists l, ld (a_level a) i = Some l /\ 1 <= l.
Proof.
  intros Hi. destruct (ct_parent _ _ _ _ _ _ CT i Hi) as (p & nc & k & _ & Hp & En & Hk & Ec).
  destruct (kids pt_dim n_point n_node max_level n_leaf a CT p nc ltac:(lia) En ltac:(lia)) as (cs & lv & Lc & Hpos & El & Cc & Hc & _).
  rewrite Cc in Ec by lia. injection Ec as Ec. destruct (Hc k Hk) as (_ & L). rewrite Ec in L. exists (lv + 1). split; [auto|].
  destruct (ct_node _ _ _ _ _ _ CT p ltac:(lia)) as (s & e & l & h & nc' & (_ & _ & E' & _) & _ & _ & L0 & _).
  assert (l = lv) by congruence. lia.
Qed.

Lemma not_root n0 n1 : 0 <= n0 < n_node -> 0 <= n1 < n_node -> disjoint a n0 n1 -> n0 < n_node - 1 /\ n1 < n_node - 1.
Proof.
  intros H0 H1 D.
  destruct (ct_node _ _ _ _ _ _ CT n0 H0) as (s & e & l0 & h & nc & D0 & S0 & N0 & _).
  destruct (ct_node _ _ _ _ _ _ CT n1 H1) as (s' & e' & l1 & h' & nc' & D1 & S1 & N1 & _). split.
  - destruct (Z.eq_dec n0 (n_node - 1)) as [->|]; [|lia]. specialize (D s'). rewrite root_owns in D by lia. rewrite (owns_data a _ _ _ _ _ _ _ D1) in D. lia.
  - destruct (Z.eq_dec n1 (n_node - 1)) as [->|]; [|lia]. specialize (D s). rewrite root_owns in D by lia. rewrite (owns_data a _ _ _ _ _ _ _ D0) in D. lia.
Qed.

Lemma max_level_pos : 2 <= n_node -> 1 <= max_level.
Proof.
  intros Hn. destruct (level_pos 0 ltac:(lia)) as (l & E & Hl).
  destruct (ct_node _ _ _ _ _ _ CT 0 ltac:(lia)) as (s & e & l0 & h & nc & (_ & _ & E' & _) & _ & _ & L & _). assert (l = l0) by congruence. lia.
Qed.

End Top.

Lemma boxes_of_tree {F : num} fuel rnd pt_dim xpt_dim n_point (coord0 : mem F) mlp mls rbox t :
  points_ok pt_dim xpt_dim n_point coord0 rbox ->
  build_tree fuel rnd pt_dim xpt_dim n_point coord0 mlp mls rbox = Some (Some t) ->
  cluster_tree pt_dim n_point (r_n_node t) (r_max_level t) (r_n_leaf t) (r_arrays t) /\ boxes_set pt_dim (r_n_node t) (r_arrays t).
Proof.
  intros Hok E. destruct (build_tree_spec fuel rnd pt_dim xpt_dim n_point coord0 mlp mls rbox Hok (fun _ _ => True)) as (r & E' & Hr); auto.
  destruct (Hr t ltac:(congruence)) as (_ & CT & _ & K). split; [auto|]. intros i k Hi Hk.
  destruct (ct_node _ _ _ _ _ _ CT i Hi) as (s & e & l0 & h & nc & D & _).
  destruct (K i s e l0 h nc Hi D) as (bx & (_ & Ib) & Eb & _). rewrite Eb by auto. auto.
Qed.
