(** Steps 1 to 3 of H2P_partition_points as a whole. *)
From Coq Require Import ZArith QArith Qabs Lqa List Lia Bool Permutation.
From Verif Require Import Base Mem Num Spec_Utils Proof_Utils Proof_Bucket Model_Partition Proof_Partition Proof_Bisect Proof_RootBox Spec_Tree Spec_Partition Proof_TreeArray Proof_TreeArray2.
Import ListNotations.
Open Scope Z_scope.

Section Gen.
Context {F : num}.

Lemma filled_coord xpt_dim n_point (co : mem F) : filled co (n_point * xpt_dim) -> coord_init xpt_dim n_point co.
Proof. intros H; exact H. Qed.
Lemma filled_box pt_dim (b : mem F) : filled b (pt_dim * 2) -> box_init pt_dim b.
Proof. intros H; exact H. Qed.

Context (fuel : nat) (rnd : Z -> F) (pt_dim xpt_dim n_point : Z) (coord0 : mem F) (mlp : Z) (mls : F) (rbox : option (mem F)).
Hypothesis Hok : points_ok pt_dim xpt_dim n_point coord0 rbox.
Context (inbox : mem F -> (Z -> F) -> Prop).
Hypothesis Hext : forall b x y, (forall j, 0 <= j < pt_dim -> x j = y j) -> inbox b x -> inbox b y.
Hypothesis Hsub : forall b b' x, box_init pt_dim b -> box_init pt_dim b' -> inbox b x -> child_of pt_dim b x b' -> inbox b' x.
Hypothesis Hroot : forall coord b, coord_init xpt_dim n_point coord ->
  (forall k, 0 <= k < n_point * xpt_dim -> ld coord k = ld coord0 k) ->
  match rbox with Some b' => b = b' | None => root_box rnd coord n_point 0 (n_point - 1) pt_dim = Some b end ->
  forall q, 0 <= q < n_point -> inbox b (ptof coord n_point q).

Let mlp' := leaf_points pt_dim mlp.
Let Hd : 1 <= pt_dim. Proof. apply Hok. Qed.
Let Hxd : pt_dim <= xpt_dim. Proof. apply Hok. Qed.
Let Hn : 1 <= n_point. Proof. apply Hok. Qed.

Lemma partition_start : exists bx p0, partition fuel rnd pt_dim xpt_dim n_point coord0 mlp mls rbox =
    bisect fuel pt_dim xpt_dim n_point mls mlp' 0 0 (n_point - 1) bx p0 /\
  pre pt_dim xpt_dim n_point inbox 0 (n_point - 1) bx p0 /\
  (forall k, 0 <= k < n_point * xpt_dim -> ld (p_coord p0) k = ld coord0 k) /\
  (forall i, 0 <= i < n_point -> ld (p_idx p0) i = Some i) /\
  p_po p0 = 0 /\ p_nleaf p0 = 0 /\ p_maxlevel p0 = 0 /\
  match rbox with Some b' => bx = b' | None => root_box rnd (p_coord p0) n_point 0 (n_point - 1) pt_dim = Some bx end.
Proof.
  pose proof Hok as ([H1 H2] & H3 & Hc0 & Hrb). pose proof Hc0 as [Z0 L0].
  assert (Hsz : 0 <= n_point * xpt_dim) by nia.
  unfold partition. cbv zeta. fold (leaf_points pt_dim mlp). fold mlp'.
  destruct (mcpy_spec (alloc (n_point * xpt_dim)) 0 coord0 0 (n_point * xpt_dim)) as (co & Ec & Zc & Gc); try lia.
  { rewrite zlen_alloc; lia. }
  rewrite Ec. cbn [bind].
  assert (Gc' : forall k, 0 <= k < n_point * xpt_dim -> ld co k = ld coord0 k).
  { intros k Hk. unfold ld. rewrite Gc. destruct (Z.leb_spec 0 k), (Z.ltb_spec k (0 + n_point * xpt_dim)); simpl; try lia.
    replace (k - 0) with k by lia. reflexivity. }
  assert (Ico : coord_init xpt_dim n_point co).
  { split; [rewrite Zc, zlen_alloc; lia|]. intros k Hk. rewrite Gc' by auto. apply L0. auto. }
  destruct (zfill_spec (fun i => i) (fun i (m : mem Z) => st m i i) 0 n_point (alloc n_point)) as (ix & Ei & Zi & Li); auto; try lia.
  { rewrite zlen_alloc; lia. }
  rewrite Ei. cbn [bind].
  assert (exists bx, (match rbox with Some b => Some b | None => root_box rnd co n_point 0 (n_point - 1) pt_dim end = Some bx) /\ box_init pt_dim bx /\
    match rbox with Some b' => bx = b' | None => root_box rnd co n_point 0 (n_point - 1) pt_dim = Some bx end) as (bx & Eb & Ib & Rb).
  { destruct rbox as [b|].
    - exists b. split; auto.
    - destruct (root_box_ok pt_dim xpt_dim n_point Hd Hxd Hn co Ico (fun _ _ => True)) with (rnd := rnd) as (b & c & semi & E & I & _); auto.
      exists b. auto. }
  rewrite Eb. cbn [bind].
  eexists bx, _. split; [reflexivity|]. cbn [p_coord p_idx p_po p_nleaf p_maxlevel].
  split; [|split; [auto|split; [|repeat split; auto]]].
  - split; auto. split; [repeat split; cbn; rewrite ?Zc, ?Zi, ?zlen_alloc; lia|]. split; auto. split; [lia|]. split; [lia|].
    intros q Hq. cbn [p_coord]. apply Hroot; auto. lia.
  - intros i Hi. rewrite Li. destruct (Z.leb_spec 0 i), (Z.ltb_spec i n_point); simpl; auto; lia.
Qed.

Lemma partition_spec : exists r, partition fuel rnd pt_dim xpt_dim n_point coord0 mlp mls rbox = Some r /\
  forall root p, r = Some (root, p) -> reordered xpt_dim n_point coord0 (p_coord p) (p_idx p) /\
    gt (Z.shiftl 1 pt_dim) (node_ok pt_dim n_point mls mlp' inbox (p_coord p)) 0 0 (n_point - 1) 0 root /\
    p_nleaf p = leaves root /\ p_maxlevel p = t_height root /\ coord_init xpt_dim n_point (p_coord p).
Proof.
  destruct partition_start as (bx & p0 & E & Pre & Gc & Gi & P1 & P2 & P3 & _).
  destruct (bisect_spec pt_dim xpt_dim n_point Hd Hxd mls mlp' inbox Hext Hsub fuel 0 0 (n_point - 1) bx p0 Pre) as (r & Er & Hr).
  exists r. unfold bis in Er. rewrite E. split; auto. intros root p ->.
  destruct (Hr root p eq_refl) as ((tau & T1 & T2) & G & Ebx & Q1 & Q2 & Q3). rewrite P1 in G. rewrite P2 in Q2. rewrite P3 in Q3.
  pose proof (proj1 (gt_nnode _ _) _ _ _ _ _ G) as (_ & _ & _ & Hh).
  split; [|split; [exact G|split; [lia|split; [lia|]]]].
  - destruct T2 as (Sz & M1 & M2).
    assert (Hi : forall q, 0 <= q < n_point -> ld (p_idx p) (tau q) = Some q).
    { intros q Hq. unfold ld. rewrite M2 by auto. specialize (Gi q Hq). exact Gi. }
    assert (Hs : forall i, 0 <= i < n_point -> exists q, 0 <= q < n_point /\ tau q = i).
    { intros i Hi'. destruct (permutes_surj _ _ _ T1 i ltac:(lia)) as (k & Hk & Ek). exists k. split; [lia|auto]. }
    split.
    + pose (g := fun i => match ld (p_idx p) i with Some v => v | None => 0 end).
      assert (Hg : forall q, 0 <= q < n_point -> g (tau q) = q) by (intros q Hq; unfold g; now rewrite Hi).
      exists (map g (zrange 0 n_point)). split.
      * apply Permutation_trans with (map g (map tau (zrange 0 n_point))).
        { apply Permutation_map. apply Permutation_sym. replace n_point with (n_point - 1 + 1) by lia. apply permutes_perm; auto. }
        rewrite map_map. rewrite (map_ext_in (fun x => g (tau x)) (fun x => x)); [rewrite map_id; auto|].
        intros q Hq. apply In_zrange in Hq. apply Hg. lia.
      * intros i Hi'. rewrite getz_map, getz_zrange by lia. cbn [option_map]. rewrite Z.add_0_l.
        destruct (Hs i Hi') as (q & Hq & <-). rewrite Hi, Hg by auto. reflexivity.
    + intros i j o Hi' Hj Eo. destruct (Hs i Hi') as (q & Hq & <-). rewrite Hi in Eo by auto. injection Eo as <-.
      transitivity (ld (p_coord p0) (j * n_point + q)); [unfold ld; now rewrite M1 by auto|]. apply Gc. nia.
  - destruct Pre as (Hc & _). eapply moved_coord_init with (s := 0) (e := n_point - 1) (t := tau) (pt_dim := pt_dim); eauto; lia.
Qed.

Lemma build_tree_spec : exists r, build_tree fuel rnd pt_dim xpt_dim n_point coord0 mlp mls rbox = Some r /\
  forall t, r = Some t -> reordered xpt_dim n_point coord0 (r_coord t) (r_idx t) /\
    cluster_tree pt_dim n_point (r_n_node t) (r_max_level t) (r_n_leaf t) (r_arrays t) /\
    leaf_rule pt_dim mlp mls (r_n_node t) (r_arrays t) /\
    forall i s e lv h nc, 0 <= i < r_n_node t -> node_data (r_arrays t) i s e lv h nc -> exists bx, box_init pt_dim bx /\
      (forall k, 0 <= k < pt_dim * 2 -> ld (a_box (r_arrays t)) (i * (pt_dim * 2) + k) = ld bx k) /\
      forall q, s <= q <= e -> inbox bx (ptof (r_coord t) n_point q) /\ coord_init xpt_dim n_point (r_coord t).
Proof.
  destruct partition_spec as (r & E & Hr). unfold build_tree. rewrite E. cbn [bind].
  destruct r as [[root p]|]; [|eexists; split; [reflexivity|]; intros; discriminate].
  destruct (Hr root p eq_refl) as (R1 & G & R3 & R4 & R5). clear Hr.
  assert (HP : forall u, node_ok pt_dim n_point mls mlp' inbox (p_coord p) u -> box_init pt_dim (t_box u)) by (intros u (X & _); auto).
  destruct (tree_arrays_ainv pt_dim n_point Hd _ HP root G) as (a & Ea & A & Er).
  rewrite R3, R4, Ea. cbn [bind]. eexists. split; [reflexivity|]. intros t Et. injection Et as <-. cbn [r_coord r_idx r_n_node r_max_level r_n_leaf r_arrays].
  split; auto. split; [apply (cluster_tree_of pt_dim n_point Hd _ HP root G a A Er)|].
  assert (K : forall i s e lv h nc, 0 <= i < t_nnode root -> node_data a i s e lv h nc -> exists u, In u (flat root) /\ t_po u = i /\ s = t_s u /\ e = t_e u /\ nc = t_nchild u /\
    node_ok pt_dim n_point mls mlp' inbox (p_coord p) u).
  { intros i s e lv h nc Hi D. destruct (node_at pt_dim n_point _ root G i Hi) as (u & Hu & <-).
    destruct (nd_det pt_dim root a A u _ _ _ _ _ Hu D) as (-> & -> & -> & -> & ->). exists u.
    destruct (proj1 (flat_sub _ _) _ _ _ _ _ G u Hu) as (lv' & po' & G' & _).
    pose proof (gt_inv _ _ _ _ _ _ _ G') as (Q1 & _). repeat (split; [reflexivity||assumption|]). exact Q1. }
  split.
  - intros i s e lv h nc Hi D. destruct (K _ _ _ _ _ _ Hi D) as (u & Hu & <- & -> & -> & -> & (B1 & B2 & _)).
    exists (vd (t_box u) pt_dim). unfold boxwidth, ld. rewrite (box_of pt_dim root a A u Hu) by lia. fold (ld (t_box u) (pt_dim + 0)).
    rewrite Z.add_0_r. split; [apply box_vd with (pt_dim := pt_dim); auto; lia|]. rewrite B2. unfold small. rewrite orb_true_iff, Z.leb_le. reflexivity.
  - intros i s e lv h nc Hi D. destruct (K _ _ _ _ _ _ Hi D) as (u & Hu & <- & -> & -> & -> & (B1 & B2 & B3)).
    exists (t_box u). split; auto. split; [intros k Hk; unfold ld; now rewrite (box_of pt_dim root a A u Hu) by auto|]. intros q Hq. split; auto.
Qed.

End Gen.
