(** H2P_build_periodic delivers what the periodic product needs. *)
From Coq Require Import ZArith QArith List Lia Bool Permutation.
From Verif Require Import Base Mem Num CRing Conc Model_Utils Spec_Utils Proof_Utils Model_Dense Spec_Dense Proof_Dense Model_CSR Spec_CSR Model_Partition Spec_Tree Spec_Partition
  Model_Pairs Spec_Pairs Proof_Pairs Model_Matvec Spec_Matvec Proof_MvMid Proof_MvTop Model_Build Spec_Build Proof_Build Proof_BuildFill Model_Periodic Spec_Periodic Proof_PerBlock Proof_PerRoot Proof_PerMeta Model_PerBuild Proof_BuildTop.
Import ListNotations.
Open Scope Z_scope.

Section PerBuild.
Context {F : num} {K : cring}.
Variables kern pkern : list F -> list F -> Z -> Z -> K.
Variables (pt_dim xpt_dim kdim n_point n_thread : Z) (coord0 : mem F) (t : tree_result F) (nl : Z) (lattices : mem F) (ta ti : list (Z * Z * Z)) (adm inadm : mem Z * mem F)
  (U : list (dmat K)) (J : list int_vec) (Jc : list (dmat F)) (js : Z -> list Z) (blkB blkD0 blkD1 : int_vec) (bl bl0 bl1 : list Z) (ordB ordD : list Z) (m0 : dmat F) (m1 : dmat K)
  (w : Z -> F) (lat : Z -> Z -> F).
Notation a := (r_arrays t).
Notation n_node := (r_n_node t).
Notation n_leaf := (r_n_leaf t).
Hypothesis Hdims : 1 <= pt_dim /\ 1 <= kdim /\ 1 <= n_thread /\ 1 <= n_point.
Hypothesis Hx : pt_dim <= xpt_dim /\ xpt_dim <= 8 /\ 0 <= nl.
Hypothesis CT : cluster_tree pt_dim n_point n_node (r_max_level t) n_leaf a.
Hypothesis RE : reordered xpt_dim n_point coord0 (r_coord t) (r_idx t).
Hypothesis HC : forall d q, 0 <= d < xpt_dim -> 0 <= q < n_point -> exists v, ld coord0 (d * n_point + q) = Some v.
Hypothesis SK : skeletons_ok pt_dim xpt_dim kdim n_point n_node 0 (r_coord t) a U J Jc js.
Hypothesis HJc : forall i m, getz Jc i = Some m -> dm_ok m /\ dm_nrow m = xpt_dim /\ dm_ld m = dm_ncol m.
Hypothesis Hblk : iv_holds blkB bl /\ iv_holds blkD0 bl0 /\ iv_holds blkD1 bl1.
Hypothesis Hord : Permutation ordB (zrange 0 n_node) /\ Permutation ordD (zrange 0 n_node).
Hypothesis Hm : dm_ok m0 /\ dm_ok m1.
Hypothesis Hw : forall j, 0 <= j < pt_dim -> ld (a_box a) ((n_node - 1) * (2 * pt_dim) + pt_dim + j) = Some (w j).
Hypothesis Hlat : forall l j, 0 <= l < nl -> 0 <= j < pt_dim -> ld lattices (l * pt_dim + j) = Some (lat l j).
Notation sh := (lshift pt_dim w lat).
Definition arrays_of (ts : list (Z * Z * Z)) (x : mem Z * mem F) : Prop :=
  zlen (fst x) = zlen ts * 2 /\ forall i n0 n1 l, getz ts i = Some (n0, n1, l) -> ld (fst x) (i * 2 + 0) = Some n0 /\ ld (fst x) (i * 2 + 1) = Some n1 /\
    forall j, 0 <= j < pt_dim -> ld (snd x) (i * pt_dim + j) = Some (sh l j).
Hypothesis HA : arrays_of ta adm.
Hypothesis HI : arrays_of ti inadm.
Hypothesis Rta : forall n0 n1 l, In (n0, n1, l) ta -> 0 <= n0 < n_node /\ 0 <= n1 < n_node.
Hypothesis Rti : forall n0 n1 l, In (n0, n1, l) ti -> 0 <= n0 < n_node /\ 0 <= n1 < n_node.
Hypothesis Hsome : 1 <= zlen ta.
Hypothesis Hroot : forall n1 l, ~ In (n_node - 1, n1, l) ta.

Notation prs := (Pairs (map fst ta) (map fst ti) 0).
Notation apairs := (map fst ta).
Notation ipairs := (map fst ti).
Notation cs := (cs t). Notation ce := (ce t). Notation lf := (lf t). Notation side_n := (side_n t js).
Notation cpt := (cpt xpt_dim n_point t).

Lemma pairs_in_spec ts x : arrays_of ts x -> pairs_in (fst x) = Some (map fst ts).
Proof.
  intros [Z1 G]. unfold pairs_in. rewrite Z1, Z.div_mul by lia. pose proof (zlen_nonneg ts) as Zt.
  destruct (zfor_inv (fun i acc => acc = firstn (Z.to_nat i) (map fst ts)) 0 (zlen ts) (fun i acc => a <- ld (fst x) (i * 2 + 0); b <- ld (fst x) (i * 2 + 1); Some (acc ++ [(a, b)])) []) as (r & E & Hr); auto.
  - intros i acc Hi ->. destruct (getz_in ts i Hi) as [[[n0 n1] l] E]. destruct (G _ _ _ _ E) as (-> & -> & _). cbn [bind]. eexists. split; [reflexivity|].
    rewrite (firstn_snoc_getz (map fst ts) i (n0, n1)); [reflexivity|]. now rewrite getz_map, E.
  - rewrite E. f_equal. subst r. replace (Z.to_nat (zlen ts)) with (length (map fst ts)) by (rewrite map_length; unfold zlen; lia). apply firstn_all.
Qed.

Lemma apair k n0 n1 : getz apairs k = Some (n0, n1) -> exists l, getz ta k = Some (n0, n1, l).
Proof. rewrite getz_map. destruct (getz ta k) as [[[x y] l]|]; [|discriminate]. cbn. intros E. injection E as <- <-. eauto. Qed.
Lemma ipair k n0 n1 : getz ipairs k = Some (n0, n1) -> exists l, getz ti k = Some (n0, n1, l).
Proof. rewrite getz_map. destruct (getz ti k) as [[[x y] l]|]; [|discriminate]. cbn. intros E. injection E as <- <-. eauto. Qed.

Lemma lev0 i : 0 <= i < n_node -> 0 <= lev a i.
Proof. intros Hi. now destruct (cluster_at pt_dim n_point t CT i Hi) as (_ & _ & _ & _ & _ & ? & _). Qed.

Lemma zlen_cpt i : zlen (cpt i) = xpt_dim.
Proof. unfold Proof_BuildTop.cpt, coords_of. rewrite zlen_map, zlen_zrange; lia. Qed.

Lemma getz_cpt i d : 0 <= i < n_point -> 0 <= d < xpt_dim -> ld (r_coord t) (d * n_point + i) = getz (cpt i) d.
Proof.
  intros Hi Hd. destruct (coord_set pt_dim xpt_dim kdim n_point n_thread coord0 t Hdims RE HC d i Hd Hi) as [v E]. unfold Proof_BuildTop.cpt, coords_of.
  rewrite getz_map, getz_zrange by lia. cbn [option_map]. rewrite Z.add_0_l, E. reflexivity.
Qed.

Lemma js_in i p : 0 <= i < n_node -> In p (js i) -> 0 <= p < n_point.
Proof.
  intros Hi Hp. pose proof (js_range pt_dim xpt_dim kdim n_point t prs U J Jc js CT SK i p Hi (lev0 i Hi) Hp). destruct (cluster_at pt_dim n_point t CT i Hi) as (_ & _ & C1 & C2 & _). lia.
Qed.

Lemma Jc_holds i m : getz Jc i = Some m -> dm_holds m xpt_dim (zlen (js i)) (fun d k => nth (Z.to_nat d) (cpt (nthz (js i) k)) (nlit 0%Q)).
Proof.
  intros Em. destruct (HJc i m Em) as (O1 & O2 & O3). destruct (sk_Jc _ _ _ _ _ _ _ _ _ _ _ _ SK i m Em) as (Hn & G). pose proof (getz_range _ _ _ Em) as Hi.
  rewrite (proj2 (proj2 (sk_len _ _ _ _ _ _ _ _ _ _ _ _ SK))) in Hi. pose proof (zlen_nonneg (js i)).
  assert (V : forall d k, 0 <= d < xpt_dim -> 0 <= k < zlen (js i) -> ld (dm_data m) (d * dm_ld m + k) = Some (nth (Z.to_nat d) (cpt (nthz (js i) k)) (nlit 0%Q))).
  { intros d k Hd Hk. pose proof (getz_nthz _ _ Hk) as Gk. pose proof (js_in i _ Hi (getz_In _ _ _ Gk)) as Hp. rewrite O3, (G d k _ Hd Gk), getz_cpt by auto.
    destruct (getz_in (cpt (nthz (js i) k)) d) as [v Ev]; [rewrite zlen_cpt; lia|]. rewrite Ev. f_equal. unfold getz in Ev. destruct (0 <=? d); [|discriminate]. symmetry. now apply nth_error_nth. }
  split; auto. split; auto. split; auto. split; auto.
  unfold fits. split; [lia|]. split; [lia|]. split; [lia|]. split; [lia|]. intros H1 H2. pose proof (ld_range _ _ _ (V (xpt_dim - 1) (zlen (js i) - 1) ltac:(lia) ltac:(lia))). lia.
Qed.

Theorem build_periodic_spec : exists h c perm, build_periodic kern pkern pt_dim xpt_dim kdim n_point n_thread t nl lattices adm inadm U J Jc blkB blkD0 blkD1 ordB ordD m0 m1 = Some (h, c) /\
  per_rep_ok h apairs /\
  per_ok h cpt js apairs ipairs (fun k => sh (lattice_of ta k)) (fun k => sh (lattice_of ti k)) (root_block kern pkern kdim nl (fun k => cpt (nthz (js (n_node - 1)) k)) sh) c /\
  Permutation perm (zrange 0 n_point) /\ (forall i, 0 <= i < n_point -> ld (r_idx t) i = getz perm i) /\
  (forall p, 0 <= p < n_point * kdim -> nthz (h_fwd h) p = nthz perm (p / kdim) * kdim + p mod kdim) /\
  (h_npoint h = n_point /\ h_kdim h = kdim /\ h_nthread h = n_thread /\ h_nnode h = n_node /\ h_nleaf h = n_leaf /\ h_kms h = kdim * n_point /\ h_t h = a /\ h_U h = U).
Proof.
  destruct Hdims as (D1 & D2 & D3 & D4). destruct Hx as (X1 & X2 & X3). destruct Hblk as (HB & HB0 & HB1).
  assert (Nn : 1 <= n_node) by apply (ct_root _ _ _ _ _ _ CT).
  assert (ML : 0 <= 0 <= r_max_level t) by (destruct (cluster_at pt_dim n_point t CT 0 ltac:(lia)) as (_ & _ & _ & _ & _ & ? & ?); lia).
  destruct (leaves pt_dim kdim n_point n_thread t prs Hdims CT ML) as (L1 & L2 & L3).
  destruct RE as [(perm & Hperm & Hidx) _].
  destruct (mat_clusters_spec kdim n_node (a_cluster a) cs ce ltac:(lia)) as (mcl & Em & Hmc).
  { intros i Hi. destruct (cluster_at pt_dim n_point t CT i Hi) as (A1 & A2 & _). rewrite (Z.mul_comm i 2). auto. }
  set (np0 := fun k => side_n (fst (pair_at apairs k)) (snd (pair_at apairs k))).
  set (np1 := fun k => side_n (snd (pair_at apairs k)) (fst (pair_at apairs k))).
  assert (RA : forall k n0 n1, getz apairs k = Some (n0, n1) -> 0 <= n0 < n_node /\ 0 <= n1 < n_node).
  { intros k n0 n1 En. destruct (apair _ _ _ En) as [l El]. eapply Rta. eapply getz_In; eauto. }
  assert (RI : forall k n0 n1, getz ipairs k = Some (n0, n1) -> 0 <= n0 < n_node /\ 0 <= n1 < n_node).
  { intros k n0 n1 En. destruct (ipair _ _ _ En) as [l El]. eapply Rti. eapply getz_In; eauto. }
  destruct (gen_B_per kdim n_node n_thread (a_level a) (a_cluster a) J apairs np0 np1 D2) with (ntask := BD_NTASK_THREAD) (ord := ordB) (blk := blkB) (bl := bl)
    as (bm & nr & vB & EB & MB & Znr & Lnr); auto.
  { intros k n0 n1 En. destruct (RA _ _ _ En) as (H0 & H1). unfold np0, np1, pair_at. rewrite En. cbn [val fst snd].
    split; [now apply (B_npts_spec pt_dim xpt_dim kdim n_point t prs U J Jc js CT SK)|]. split; [now apply (side_n_nonneg pt_dim n_point t js CT)|]. split; [now apply (side_n_nonneg pt_dim n_point t js CT)|]. auto. }
  { unfold BD_NTASK_THREAD. lia. }
  { rewrite zlen_map. auto. }
  { apply Hord. }
  destruct (gen_D_per kdim n_node n_leaf n_thread (a_height_nodes a) (a_cluster a) ipairs lf cs ce D2) with (ntask := BD_NTASK_THREAD) (ord := ordD) (blk0 := blkD0) (blk1 := blkD1) (bl0 := bl0) (bl1 := bl1)
    as (dm & vD0 & vD1 & ED & MD); auto.
  { intros i Hi. destruct (cluster_at pt_dim n_point t CT i Hi) as (A1 & A2 & A3 & _). split; [auto|]. split; [auto|]. lia. }
  { unfold BD_NTASK_THREAD. lia. }
  { apply Hord. }
  destruct (J_at pt_dim xpt_dim kdim n_point t prs U J Jc js SK (n_node - 1) ltac:(lia)) as (jv & jr & EJ & LJ & EJc & _).
  pose proof (Jc_holds _ _ EJc) as HJr. pose proof (zlen_nonneg (js (n_node - 1))) as Zj.
  destruct (per_block_spec kern pkern xpt_dim pt_dim kdim (zlen (js (n_node - 1))) nl jr (fun k => cpt (nthz (js (n_node - 1)) k))
     (fun j => ld (a_box a) ((n_node - 1) * (2 * pt_dim) + pt_dim + j)) w lattices lat) with (m0 := m0) (m1 := m1) as (blk & Eblk & Zblk & Vblk); auto; try lia; try apply Hm.
  { intros k Hk. apply zlen_cpt. }
  destruct (pmt_indices_spec n_point kdim (r_idx t) perm D2 ltac:(lia) Hperm Hidx) as (fwd & bwd & fl & fb & EP & RF & RB & ZF & ZBw & NF & PM).
  unfold build_periodic. rewrite (pairs_in_spec _ _ HA), (pairs_in_spec _ _ HI). cbn [bind]. rewrite Em. cbn [bind]. rewrite EB. cbn [bind]. rewrite ED. cbn [bind]. rewrite EJc. cbn [bind]. rewrite Eblk. cbn [bind].
  rewrite EP. cbn [bind]. rewrite RF. cbn [bind]. rewrite RB. cbn [bind]. rewrite EJ. cbn [bind].
  eexists _, _, perm. split; [reflexivity|].
  match goal with |- per_rep_ok ?x _ /\ per_ok _ _ _ _ _ _ _ _ ?y /\ _ => set (h := x); set (c := y) end.
  assert (Hmcl : forall i, 0 <= i < n_node -> mfirst h i = kdim * cs i /\ mlast h i = kdim * (ce i + 1) - 1).
  { intros i Hi. destruct (Hmc i Hi) as [M1 M2]. unfold mfirst, mlast. change (h_mcl h) with mcl. rewrite M1, M2. auto. }
  assert (Hms : forall i, 0 <= i < n_node -> msize h i = npts a i * kdim).
  { intros i Hi. unfold msize. destruct (Hmcl i Hi) as [-> ->]. rewrite npts_cs. lia. }
  assert (Hrank : forall i, 0 <= i < n_node -> rank h i = kdim * zlen (js i)).
  { intros i Hi. unfold rank. change (h_U h) with U. destruct (sk_len _ _ _ _ _ _ _ _ _ _ _ _ SK) as (ZU & _). destruct (getz_in U i ltac:(lia)) as [V EV]. rewrite EV.
    destruct (sk_U _ _ _ _ _ _ _ _ _ _ _ _ SK i V EV) as (_ & HU). now destruct (HU (lev0 i Hi)) as (_ & -> & _). }
  assert (Hlev : forall i, level h i = lev a i) by reflexivity.
  assert (Hside : forall n m, 0 <= n < n_node -> side_n n m * kdim = side_size h n m).
  { intros n m Hn. unfold side_size. rewrite !Hlev. unfold Proof_BuildTop.side_n. destruct (Z.leb_spec (lev a m) (lev a n)); [rewrite Hrank; auto; lia|rewrite Hms; auto]. }
  split; [|split; [|split; [auto|split; [auto|split; [exact NF|cbn; auto 30]]]]].
  - constructor.
    + cbn. split; [auto|]. split; [auto|]. split; [auto|]. split; [auto|]. split; [auto|]. split; [auto|]. lia.
    + exact CT.
    + intros i s e Hi Es Ee. destruct (cluster_at pt_dim n_point t CT i Hi) as (A1 & A2 & _). rewrite Z.add_0_r in Es. rewrite (Z.mul_comm 2 i) in *.
      change (h_t h) with a in *. rewrite A1 in Es. rewrite A2 in Ee. injection Es as <-. injection Ee as <-. apply Hmc. auto.
    + change (h_U h) with U. destruct (sk_len _ _ _ _ _ _ _ _ _ _ _ _ SK) as (ZU & _). split; [auto|]. intros i V EV. pose proof (getz_range _ _ _ EV) as Hi. rewrite ZU in Hi.
      destruct (sk_U _ _ _ _ _ _ _ _ _ _ _ _ SK i V EV) as (U1 & U2). destruct (U2 (lev0 i Hi)) as (W1 & W2 & W3 & W4 & W5).
      split; [rewrite W2; nia|]. split; [|auto]. rewrite W3. change (nchild h i) with (nch a i). destruct (Z.eqb_spec (nch a i) 0).
      * rewrite Hms by auto. lia.
      * unfold choff. rewrite zsumf_scale. apply zsumf_ext. intros k Hk. change (child h i k) with (chd a pt_dim i k).
        destruct (chd_at pt_dim n_point t CT i k Hi Hk) as (C1 & C2). rewrite Hrank; auto. lia.
    + split; [exact Znr|]. intros i Hi. exists (firsts apairs i). split; [apply Lnr; auto|]. intros k n1 En. unfold firsts.
      apply getz_In in En. apply in_split in En as (l1 & l2 & ->). change ((i, n1) :: l2) with ([(i, n1)] ++ l2). rewrite !zcount_app, zcount_cons, Z.eqb_refl, zcount_nil.
      pose proof (zcount_nonneg (fun '(x, _) => x =? i) l1). pose proof (zcount_nonneg (fun '(x, _) => x =? i) l2). lia.
    + change (h_fwd h) with fl. change (h_bwd h) with fb. change (h_kms h) with (kdim * n_point). rewrite (Z.mul_comm kdim). auto.
  - constructor.
    + cbn. auto 10.
    + intros i Hi. split; [apply zlen_cpt|]. intros d Hd. apply getz_cpt; auto.
    + intros i Hi. split; [apply Hrank; auto|]. intros p Hp. eapply js_in; eauto.
    + split; [apply (sk_len _ _ _ _ _ _ _ _ _ _ _ _ SK)|]. intros i m Em'. apply Jc_holds. auto.
    + intros k n0 n1 En. destruct (RA _ _ _ En) as (H0 & H1). split; [auto|]. split; [auto|]. pose proof (getz_range _ _ _ En) as Hk. destruct (proj1 MB k Hk) as [B1 B2].
      change (q_bm c) with bm. rewrite B1, B2. unfold np0, np1, pair_at. rewrite En. cbn [val fst snd]. rewrite !Hside by auto. split; [auto|]. split; [auto|].
      destruct (apair _ _ _ En) as [l El]. unfold lattice_of. rewrite El. split.
      * intros d Hd. change (q_dim c) with pt_dim in *. change (q_shB c) with (snd adm). now apply (proj2 HA _ _ _ _ El).
      * intros d Hd. change (q_dim c) with pt_dim in *. unfold lshift. destruct (Z.ltb_spec d pt_dim); [lia|now rewrite andb_false_r].
    + exact (proj2 MB).
    + intros k Hk. change (h_nleaf h) with n_leaf in Hk. change (q_dm c) with dm. destruct (proj1 MD k) as [B1 B2]; [pose proof (zlen_nonneg ipairs); lia|]. rewrite B1, B2.
      unfold d_row, d_col. rewrite (proj2 (Z.ltb_lt k n_leaf)) by lia. change (leaf h k) with (lf k). rewrite Hms by (apply L2; auto). rewrite npts_cs. auto.
    + intros k n0 n1 En. destruct (RI _ _ _ En) as (H0 & H1). split; [auto|]. split; [auto|]. pose proof (getz_range _ _ _ En) as Hk. destruct (proj1 MD (n_leaf + k)) as [B1 B2]; [lia|].
      change (q_dm c) with dm. change (h_nleaf h) with n_leaf. rewrite B1, B2. unfold d_row, d_col. destruct (Z.ltb_spec (n_leaf + k) n_leaf); [lia|]. replace (n_leaf + k - n_leaf) with k by lia. unfold pair_at. rewrite En. cbn [val fst snd].
      rewrite !Hms, !npts_cs by auto. split; [auto|]. split; [auto|].
      destruct (ipair _ _ _ En) as [l El]. unfold lattice_of. rewrite El. split.
      * intros d Hd. change (q_dim c) with pt_dim in *. change (q_shD c) with (snd inadm). now apply (proj2 HI _ _ _ _ El).
      * intros d Hd. change (q_dim c) with pt_dim in *. unfold lshift. destruct (Z.ltb_spec d pt_dim); [lia|now rewrite andb_false_r].
    + exact (proj2 MD).
    + split; [exact LJ|]. split.
      * intros k n1 En. destruct (apair _ _ _ En) as [l El]. apply (Hroot n1 l). eapply getz_In; eauto.
      * change (root h) with (n_node - 1). rewrite Hrank by lia. rewrite (Z.mul_comm kdim). exact Vblk.
Qed.
End PerBuild.
