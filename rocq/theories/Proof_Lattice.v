(** The lattice tables of H2Pack qualify: exact arithmetic. *)
From Coq Require Import ZArith QArith Qabs Qminmax List Lia Bool Lqa.
From Verif Require Import Base Mem Num Model_Partition Spec_Tree Spec_Partition Model_Pairs Spec_Pairs Proof_Pairs Proof_PairsTop Proof_PairsPer Props_Pairs Proof_BuildTop CRing Spec_Periodic Proof_PerBlock Proof_PerRoot Model_Lattice.
Import ListNotations.
Open Scope Z_scope.

Lemma below n (P : Z -> bool) : forallb P (zrange 0 n) = true -> forall i, 0 <= i < n -> P i = true.
Proof. rewrite forallb_forall. intros H i Hi. apply H. apply In_zrange. lia. Qed.

Section Root.
Context {F : num}.
Lemma only_root pt_dim n_point n_node ml nleaf (a : tarrays F) i : cluster_tree pt_dim n_point n_node ml nleaf a -> 0 <= i < n_node ->
  levels_fit a (n_node - 1) i -> i = n_node - 1.
Proof.
  intros CT Hi (l0 & l1 & E0 & E1 & H). destruct (Z.eq_dec i (n_node - 1)) as [|Ne]; [auto|exfalso].
  destruct (ct_root _ _ _ _ _ _ CT) as (N & _ & nc & D). assert (D3 := proj1 (proj2 (proj2 D))). rewrite D3 in E0. injection E0 as <-.
  destruct (ct_parent _ _ _ _ _ _ CT i ltac:(lia)) as (p & nc' & k & Ep & Hp & En & Hk & Ek).
  destruct (ct_node _ _ _ _ _ _ CT p ltac:(lia)) as (s & e & lv & h & nc2 & D2 & _ & _ & Hlv & Hh & _ & _).
  assert (nc2 = nc') by (destruct D2 as (_ & _ & _ & _ & X); congruence). subst nc2.
  destruct (ct_children _ _ _ _ _ _ CT p s e lv h nc' ltac:(lia) D2 ltac:(lia)) as (cs & Zc & Hc & Ti & _ & _).
  assert (Hin : In i cs) by (apply (getz_In _ k); rewrite <- Hc; auto).
  assert (Lv : ld (a_level a) i = Some (lv + 1)).
  { clear - Ti Hin. revert s Ti. induction cs as [|c cs IH]; [easy|]. intros s (ce & hc & ncc & Dc & _ & _ & _ & T). destruct Hin as [->|Hin]; [apply Dc|eauto]. }
  rewrite Lv in E1. injection E1 as <-. destruct H as [H|[[_ H]|[H _]]]; [lia| |lia].
  unfold is_leaf in H. destruct D as (_ & _ & _ & Dh & Dn). rewrite H in Dn. injection Dn as <-.
  destruct (ct_node _ _ _ _ _ _ CT (n_node - 1) ltac:(lia)) as (s' & e' & lv' & h' & nc2 & (_ & _ & _ & X1 & X2) & _ & _ & _ & _ & _ & Z0).
  assert (h' = 0) by (apply Z0; congruence). assert (ml = 0) by congruence. subst.
  destruct (ct_node _ _ _ _ _ _ CT i ltac:(lia)) as (s2 & e2 & lv2 & h2 & nc3 & (_ & _ & Y & _) & _ & _ & Hl2 & _). rewrite Lv in Y. injection Y as <-. lia.
Qed.
End Root.

(** The tables list every vector of {-1, 0, 1}^pt_dim once. *)
Definition entry (pt_dim : Z) (tbl : list Z) (l j : Z) : Z := nthz tbl (l * pt_dim + j).
Definition table (pt_dim : Z) : list Z := if pt_dim =? 2 then per_lattices_2d else per_lattices_3d.
Lemma table_cells {F : num} pt_dim : pt_dim = 2 \/ pt_dim = 3 -> forall k, 0 <= k < 3 ^ pt_dim * pt_dim -> ld (snd (@run_RPY_Ewald F pt_dim)) k = Some (nlit (inject_Z (nthz (table pt_dim) k))).
Proof.
  intros Hd k Hk. assert (Hz : zlen (table pt_dim) = 3 ^ pt_dim * pt_dim) by (destruct Hd as [-> | ->]; reflexivity).
  unfold ld. replace (snd (@run_RPY_Ewald F pt_dim)) with (map (fun k => Some (@nlit F (inject_Z k))) (table pt_dim)) by (destruct Hd as [-> | ->]; reflexivity).
  rewrite getz_map, (getz_nthz (table pt_dim) k) by lia. reflexivity.
Qed.
Lemma table_len {F : num} pt_dim : pt_dim = 2 \/ pt_dim = 3 -> fst (@run_RPY_Ewald F pt_dim) = 3 ^ pt_dim /\ zlen (snd (@run_RPY_Ewald F pt_dim)) = 3 ^ pt_dim * pt_dim.
Proof. intros [-> | ->]; split; reflexivity. Qed.
Lemma entry_small pt_dim l j : pt_dim = 2 \/ pt_dim = 3 -> 0 <= l < 3 ^ pt_dim -> 0 <= j < pt_dim ->
  entry pt_dim (table pt_dim) l j = (l / 3 ^ (pt_dim - 1 - j)) mod 3 - 1.
Proof.
  intros Hd Hl Hj.
  assert (C : forallb (fun d => forallb (fun l => forallb (fun j => entry d (table d) l j =? (l / 3 ^ (d - 1 - j)) mod 3 - 1) (zrange 0 d)) (zrange 0 (3 ^ d))) [2; 3] = true) by (vm_compute; reflexivity).
  rewrite forallb_forall in C. specialize (C pt_dim ltac:(destruct Hd; subst; simpl; auto)).
  pose proof (below _ _ C l Hl) as C1. pose proof (below _ _ C1 j Hj) as C2. now apply Z.eqb_eq in C2.
Qed.
Lemma entry_zero pt_dim l : pt_dim = 2 \/ pt_dim = 3 -> 0 <= l < 3 ^ pt_dim -> l <> (3 ^ pt_dim - 1) / 2 -> exists j, 0 <= j < pt_dim /\ entry pt_dim (table pt_dim) l j <> 0.
Proof.
  intros Hd Hl Hn.
  assert (C : forallb (fun d => forallb (fun l => (l =? (3 ^ d - 1) / 2) || existsb (fun j => negb (entry d (table d) l j =? 0)) (zrange 0 d)) (zrange 0 (3 ^ d))) [2; 3] = true) by (vm_compute; reflexivity).
  rewrite forallb_forall in C. specialize (C pt_dim ltac:(destruct Hd; subst; simpl; auto)).
  pose proof (below _ _ C l Hl) as C1. cbn beta in C1. apply orb_true_iff in C1 as [C1|C1]; [apply Z.eqb_eq in C1; congruence|].
  apply existsb_exists in C1 as (j & Hj & C2). apply In_zrange in Hj. exists j. split; [lia|]. apply negb_true_iff in C2. now apply Z.eqb_neq in C2.
Qed.
Lemma centre_zero pt_dim j : pt_dim = 2 \/ pt_dim = 3 -> 0 <= j < pt_dim -> entry pt_dim (table pt_dim) ((3 ^ pt_dim - 1) / 2) j = 0.
Proof.
  intros Hd Hj. assert (C : forallb (fun d => forallb (fun j => entry d (table d) ((3 ^ d - 1) / 2) j =? 0) (zrange 0 d)) [2; 3] = true) by (vm_compute; reflexivity).
  rewrite forallb_forall in C. specialize (C pt_dim ltac:(destruct Hd; subst; simpl; auto)). pose proof (below _ _ C j Hj) as C2. now apply Z.eqb_eq in C2.
Qed.
Lemma entry_all pt_dim v : pt_dim = 2 \/ pt_dim = 3 -> zlen v = pt_dim -> Forall (fun x => -1 <= x <= 1) v ->
  exists l, 0 <= l < 3 ^ pt_dim /\ (forall j, 0 <= j < pt_dim -> entry pt_dim (table pt_dim) l j = nthz v j) /\
    forall l', 0 <= l' < 3 ^ pt_dim -> (forall j, 0 <= j < pt_dim -> entry pt_dim (table pt_dim) l' j = nthz v j) -> l' = l.
Proof.
  intros Hd Hz Hv.
  assert (U : forall l l', 0 <= l < 3 ^ pt_dim -> 0 <= l' < 3 ^ pt_dim -> (forall j, 0 <= j < pt_dim -> entry pt_dim (table pt_dim) l' j = entry pt_dim (table pt_dim) l j) -> l' = l).
  { intros l l' Hl Hl' He.
    assert (C : forallb (fun d => forallb (fun l => forallb (fun l' => (l' =? l) || existsb (fun j => negb (entry d (table d) l' j =? entry d (table d) l j)) (zrange 0 d)) (zrange 0 (3 ^ d))) (zrange 0 (3 ^ d))) [2; 3] = true) by (vm_compute; reflexivity).
    rewrite forallb_forall in C. specialize (C pt_dim ltac:(destruct Hd; subst; simpl; auto)).
    pose proof (below _ _ C l Hl) as C1. pose proof (below _ _ C1 l' Hl') as C2. cbn beta in C2. apply orb_true_iff in C2 as [C2|C2]; [now apply Z.eqb_eq in C2|].
    apply existsb_exists in C2 as (j & Hj & C2). apply In_zrange in Hj. rewrite (He j ltac:(lia)), Z.eqb_refl in C2. discriminate C2. }
  assert (X : exists l, 0 <= l < 3 ^ pt_dim /\ forall j, 0 <= j < pt_dim -> entry pt_dim (table pt_dim) l j = nthz v j).
  { assert (G : forall d w l, (d = 2 \/ d = 3) -> 0 <= l < 3 ^ d -> forallb (fun j => entry d (table d) l j =? nthz w j) (zrange 0 d) = true ->
        exists l, 0 <= l < 3 ^ d /\ forall j, 0 <= j < d -> entry d (table d) l j = nthz w j).
    { intros d w l _ Hl C. exists l. split; [auto|]. intros j Hj. pose proof (below _ _ C j Hj) as E. now apply Z.eqb_eq in E. }
    destruct Hd as [-> | ->].
    - destruct v as [|a [|b [|? ?]]]; try (exfalso; zlia). inversion_clear Hv as [|? ? Ha Hv']. inversion_clear Hv' as [|? ? Hb _].
      apply (G 2 _ ((a + 1) * 3 + (b + 1)) ltac:(auto)); [change (3 ^ 2) with 9; lia|].
      assert (a = -1 \/ a = 0 \/ a = 1) as [-> |[-> | ->]] by lia; assert (b = -1 \/ b = 0 \/ b = 1) as [-> |[-> | ->]] by lia; vm_compute; reflexivity.
    - destruct v as [|a [|b [|c [|? ?]]]]; try (exfalso; zlia). inversion_clear Hv as [|? ? Ha Hv']. inversion_clear Hv' as [|? ? Hb Hv2]. inversion_clear Hv2 as [|? ? Hc _].
      apply (G 3 _ ((a + 1) * 9 + (b + 1) * 3 + (c + 1)) ltac:(auto)); [change (3 ^ 3) with 27; lia|].
      assert (a = -1 \/ a = 0 \/ a = 1) as [-> |[-> | ->]] by lia; assert (b = -1 \/ b = 0 \/ b = 1) as [-> |[-> | ->]] by lia; assert (c = -1 \/ c = 0 \/ c = 1) as [-> |[-> | ->]] by lia; vm_compute; reflexivity. }
  destruct X as (l & Hl & Hv2). exists l. split; [auto|]. split; [auto|]. intros l' Hl' H'. apply U; auto. intros j Hj. rewrite H', Hv2 by auto. reflexivity.
Qed.
Lemma mod3 x : -1 <= x mod 3 - 1 <= 1.
Proof. pose proof (Z.mod_pos_bound x 3). lia. Qed.

Section Q.
Notation F := Qred_num.
Local Open Scope Q_scope.
Lemma Qred_inj_Z k : Qred (inject_Z k) = inject_Z k.
Proof. unfold inject_Z, Qred. pose proof (Z.ggcd_gcd k 1) as E. pose proof (Z.ggcd_correct_divisors k 1) as D. destruct (Z.ggcd k 1) as (g & aa & bb). cbn [fst] in E. rewrite Z.gcd_1_r in E. subst g. destruct D as [D1 D2]. rewrite Z.mul_1_l in D1, D2. subst. reflexivity. Qed.
Lemma Qred_zero q : q == 0 -> Qred q = 0.
Proof. intros H. apply Qred_complete in H. rewrite H. reflexivity. Qed.

(** A box next to its own image, or on it, is not separated from it. *)
Lemma not_separated (alpha c w : F) k : (0 < alpha)%Q -> (0 < w)%Q -> (-1 <= k <= 1)%Z ->
  @separated F alpha c w (@nadd F c (@nmul F w (nlit (inject_Z k)))) w = false.
Proof.
  intros Ha Hw Hk. unfold separated, nmin. cbn [nle nadd nmul nlit nlt nsub nabs Qred_num]. 
  replace (negb (Qle_bool w w)) with false by (symmetry; apply negb_false_iff; apply Qle_bool_iff; apply Qle_refl).
  apply not_true_iff_false. intros H. apply Qle_bool_iff in H. rewrite !Qred_correct in H.
  assert (Hk' : Qabs (inject_Z k) <= 1) by (apply Qabs_Qle_condition; split; [change (- (1)) with (inject_Z (-1))|change 1 with (inject_Z 1)]; rewrite <- Zle_Qle; lia).
  assert (E : c + (1 # 2) * w - (c + w * inject_Z k + (1 # 2) * w) == - (w * inject_Z k)) by ring.
  rewrite E, Qabs_opp, Qabs_Qmult, (Qabs_pos w) in H by lra.
  assert (0 < alpha * w) by (apply Qmult_lt_0_compat; auto).
  assert (w * Qabs (inject_Z k) <= w * 1) by (apply Qmult_le_l; auto). lra.
Qed.

Lemma undone_lowest (sh : Z -> Z -> F) n (q : list F) : (forall x, In x q -> Qred x = x) -> undone sh n q.
Proof.
  intros Hq l Hl. unfold moved_back. rewrite zlen_moved.
  etransitivity; [|apply (list_nth q (nlit 0%Q))]. apply map_ext_in. intros d Hd. apply In_zrange in Hd. unfold moved. rewrite nth_map_zrange by lia.
  set (x := nth (Z.to_nat d) q (nlit 0)). rewrite <- (Hq x) at 2 by (apply nth_In; zlia).
  cbn [nadd nmul nlit Qred_num]. apply Qred_complete. rewrite !Qred_correct. ring.
Qed.

Section Tree.
Variables (fuel : nat) (rnd : Z -> F) (pt_dim xpt_dim n_point : Z) (coord0 : mem F) (mlp : Z) (mls : F) (rbox : option (mem F)) (t : tree_result F).
Hypothesis Hd : pt_dim = 2%Z \/ pt_dim = 3%Z.
Hypothesis Hok : points_ok pt_dim xpt_dim n_point coord0 rbox.
Hypothesis Ht : build_tree fuel rnd pt_dim xpt_dim n_point coord0 mlp mls rbox = Some (Some t).
Hypothesis Hw : forall j, (0 <= j < pt_dim)%Z -> exists w, boxwidth pt_dim (r_arrays t) (r_n_node t - 1) j = Some w /\ e10 1 10 < w.
Notation nl := (fst (@run_RPY_Ewald F pt_dim)).
Notation lats := (snd (@run_RPY_Ewald F pt_dim)).
Notation centre := ((3 ^ pt_dim - 1) / 2)%Z.

Lemma shift_val l j : (0 <= l < 3 ^ pt_dim)%Z -> (0 <= j < pt_dim)%Z -> exists w, boxwidth pt_dim (r_arrays t) (r_n_node t - 1) j = Some w /\ e10 1 10 < w /\
  lattice_shift pt_dim lats t l j = @nmul F w (nlit (inject_Z (entry pt_dim (table pt_dim) l j))).
Proof.
  intros Hl Hj. destruct (Hw j Hj) as (w & Ew & Lw). exists w. split; [auto|]. split; [auto|]. unfold lattice_shift.
  rewrite (proj2 (Z.leb_le 0 j)), (proj2 (Z.ltb_lt j pt_dim)) by lia. cbn [andb].
  rewrite (table_cells pt_dim Hd) by nia. unfold boxwidth in Ew.
  replace ((r_n_node t - 1) * (2 * pt_dim) + pt_dim + j)%Z with ((r_n_node t - 1) * (pt_dim * 2) + (pt_dim + j))%Z by lia. rewrite Ew. reflexivity.
Qed.

Lemma standard_unshifted : one_unshifted pt_dim lats t nl centre.
Proof.
  rewrite (proj1 (table_len pt_dim Hd)). assert (C : (0 <= centre < 3 ^ pt_dim)%Z) by (destruct Hd as [-> | ->]; (split; [apply Z.leb_le|apply Z.ltb_lt]; reflexivity)).
  assert (Z0 : forall d, lattice_shift pt_dim lats t centre d = nlit 0%Q).
  { intros d. destruct (Z_le_dec 0 d) as [A|A]; [destruct (Z_lt_dec d pt_dim) as [B|B]|].
    - destruct (shift_val centre d C ltac:(lia)) as (w & _ & _ & ->). rewrite centre_zero by (auto; lia). cbn [nmul nlit Qred_num]. apply Qred_zero. rewrite Qred_correct. ring.
    - unfold lattice_shift. now rewrite (proj2 (Z.ltb_ge d pt_dim)), andb_false_r by lia.
    - unfold lattice_shift. now rewrite (proj2 (Z.leb_gt 0 d)) by lia. }
  split; [exact C|]. split; [exact Z0|]. split.
  - intros (j & Hj & E). rewrite Z0 in E. vm_compute in E. discriminate E.
  - intros l Hl Hn. destruct (entry_zero pt_dim l Hd Hl Hn) as (j & Hj & Ne). exists j. split; [auto|]. destruct (shift_val l j Hl Hj) as (w & _ & Lw & ->).
    pose proof (entry_small pt_dim l j Hd Hl Hj) as Es. pose proof (mod3 (l / 3 ^ (pt_dim - 1 - j))) as M. rewrite <- Es in M. set (k := entry pt_dim (table pt_dim) l j) in *.
    assert (E0 : 0 < e10 1 10) by reflexivity. cbn [nlt nlit nabs nmul Qred_num]. apply negb_true_iff. apply not_true_iff_false. intros H. apply Qle_bool_iff in H. rewrite !Qred_correct in H. set (e := e10 1 10) in *. clearbody e.
    assert (k = 1%Z \/ k = (-1)%Z) as [Ek | Ek] by lia; rewrite Ek in H.
    + assert (X : w * inject_Z 1 == w) by (change (inject_Z 1) with 1; ring). rewrite X, Qabs_pos in H; lra.
    + assert (X : w * inject_Z (-1) == - w) by (change (inject_Z (-1)) with (- (1)); ring). rewrite X, Qabs_opp, Qabs_pos in H; lra.
Qed.

Lemma standard_root (alpha : F) depth ts : (0 < (alpha : Q))%Q -> (2 * r_n_node t <= Z.of_nat depth)%Z ->
  all_pairs_per depth pt_dim alpha nl lats (r_n_node t) (r_arrays t) = Some ts -> forall n1 l, ~ In ((r_n_node t - 1)%Z, n1, l) (of_kind true ts).
Proof.
  intros Ha Hf Et n1 l Hin. unfold of_kind in Hin. apply in_map_iff in Hin as ([b x] & Ex & Hin). cbn [snd] in Ex. subst x. apply filter_In in Hin as [Hin Eb]. cbn [fst] in Eb. destruct b; [clear Eb|discriminate Eb].
  assert (Hfl : filled lats (nl * pt_dim)).
  { split; [rewrite (proj1 (table_len pt_dim Hd)); apply (table_len pt_dim Hd)|]. intros k Hk. rewrite (proj1 (table_len pt_dim Hd)) in Hk. eexists. apply (table_cells pt_dim Hd). auto. }
  assert (Hnl : (0 <= nl)%Z) by (rewrite (proj1 (table_len pt_dim Hd)); destruct Hd as [-> | ->]; cbn; lia).
  destruct (C33_periodic_coverage _ _ _ _ _ _ _ _ _ _ _ alpha depth nl lats Hok ltac:(lia) Ht Hf Hnl Hfl) as (ts' & Et' & C). assert (ts' = ts) by congruence. subst ts'.
  destruct (boxes_of_tree _ _ _ _ _ _ _ _ _ _ Hok Ht) as (CT & BX). assert (H4 : (pt_dim <= 4)%Z) by lia.
  destruct (all_pairs_spec pt_dim n_point _ _ _ _ CT (conj (proj1 (proj1 Hok)) H4) BX nl lats Hnl Hfl alpha depth Hf) as (ts' & Et'' & T1 & _). assert (ts' = ts) by congruence. subst ts'.
  destruct (T1 _ Hin) as (l' & Hl' & Hk). assert (l = l') by (destruct Hk; auto). subst l'. clear T1 Hk.
  pose proof Hl' as Hl. rewrite (proj1 (table_len pt_dim Hd)) in Hl.
  assert (IS : is_lattice_shift pt_dim lats (r_n_node t) (r_arrays t) l (lattice_shift pt_dim lats t l)).
  { intros j Hj. destruct (shift_val l j Hl Hj) as (w & Ew & _ & Es). exists w. eexists. split; [exact Ew|]. split; [apply (table_cells pt_dim Hd); nia|exact Es]. }
  destruct (C l _ Hl' IS) as (_ & C2). destruct (C2 _ _ _ Hin) as (H0 & H1 & HL & _ & x & y & Hxy & HA).
  assert (n1 = r_n_node t - 1)%Z by (eapply only_root; eauto). subst n1.
  assert (x = r_n_node t - 1 /\ y = r_n_node t - 1)%Z as [-> ->] by (destruct Hxy as [X|[_ X]]; injection X; auto).
  destruct (proj1 HA eq_refl) as (j & c0 & w0 & c1 & w1 & Hj & X1 & X2 & X3 & X4 & X5).
  assert (c1 = c0) by congruence. assert (w1 = w0) by congruence. subst c1 w1. destruct (shift_val l j Hl Hj) as (w & Ew & Lw & Es). unfold boxwidth in Ew. assert (w0 = w) by congruence. subst w0.
  rewrite Es, not_separated in X5; [discriminate|auto| |].
  - apply Qlt_trans with (e10 1 10); [reflexivity|auto].
  - rewrite entry_small by auto. apply mod3.
Qed.
End Tree.
End Q.
