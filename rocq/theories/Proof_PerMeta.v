(** The metadata of the periodic blocks. *)
From Coq Require Import ZArith QArith List Lia Bool Permutation.
From Verif Require Import Base Mem Num CRing Model_Utils Spec_Utils Proof_Utils Model_Dense Spec_Dense Model_Partition Spec_Tree Model_CSR Spec_CSR Props_CSR Proof_Bucket Model_Pairs Spec_Pairs Model_Matvec Spec_Matvec
  Model_Build Spec_Build Proof_Build Model_Periodic Spec_Periodic.
Import ListNotations.
Open Scope Z_scope.

Lemma coo_row_index ps r : coo_row (zlen ps) (map (fun '(i, _, _) => i) ps) (map (fun '(_, j, _) => j) ps) (map snd ps) r = index_row ps r.
Proof.
  unfold coo_row, index_row.
  induction ps as [|[[i j] v] l IH] using rev_ind; [reflexivity|]. pose proof (zlen_nonneg l).
  rewrite !map_app, zlen_app, !filter_app, map_app. cbn [map snd]. change (zlen [(i, j, v)]) with 1.
  rewrite zrange_snoc, filter_app, map_app by lia. f_equal.
  - etransitivity; [|exact IH].
    assert (E : forall m, (forall k, In k m -> 0 <= k < zlen l) ->
      map (fun k => (getz (map (fun '(_, j0, _) => j0) l ++ [j]) k, getz (map snd l ++ [v]) k)) (filter (fun k => nthz (map (fun '(i0, _, _) => i0) l ++ [i]) k =? r) m) =
      map (fun k => (getz (map (fun '(_, j0, _) => j0) l) k, getz (map snd l) k)) (filter (fun k => nthz (map (fun '(i0, _, _) => i0) l) k =? r) m)).
    { induction m as [|k m IHm]; intros Hm; [reflexivity|]. cbn [filter].
      assert (Hk : 0 <= k < zlen l) by (apply Hm; now left).
      assert (En : nthz (map (fun '(i0, _, _) => i0) l ++ [i]) k = nthz (map (fun '(i0, _, _) => i0) l) k) by (unfold nthz; rewrite getz_app1 by (rewrite zlen_map; lia); reflexivity).
      rewrite En. destruct (_ =? r); [cbn [map]; rewrite !getz_app1 by (rewrite zlen_map; lia); f_equal|]; apply IHm; intros; apply Hm; now right. }
    apply E. intros k Hk. apply In_zrange in Hk. lia.
  - assert (E1 : nthz (map (fun '(i0, _, _) => i0) l ++ [i]) (zlen l) = i) by (unfold nthz; rewrite getz_app2 by (rewrite zlen_map; lia); rewrite zlen_map, Z.sub_diag; reflexivity).
    assert (E2 : getz (map (fun '(_, j0, _) => j0) l ++ [j]) (zlen l) = Some j) by (rewrite getz_app2 by (rewrite zlen_map; lia); rewrite zlen_map, Z.sub_diag; reflexivity).
    assert (E3 : getz (map snd l ++ [v]) (zlen l) = Some v) by (rewrite getz_app2 by (rewrite zlen_map; lia); rewrite zlen_map, Z.sub_diag; reflexivity).
    cbn [filter]. rewrite E1. destruct (i =? r); cbn [map]; [now rewrite E2, E3|reflexivity].
Qed.

Lemma pair_cells n_node cap ps ord : 1 <= n_node -> 1 <= zlen ps <= cap -> Permutation ord (zrange 0 n_node) ->
  (forall i j v, In (i, j, v) ps -> 0 <= i < n_node) ->
  exists rp ci va, pair_index n_node cap ps ord = Some (rp, ci, va) /\
    forall r, 0 <= r < n_node -> exists a b, ld rp r = Some a /\ ld rp (r + 1) = Some b /\ a <= b /\ Permutation (cells ci va a b) (index_row ps r).
Proof.
  intros Hn Hz Ho Hr. unfold pair_index. destruct (Z.ltb_spec cap (zlen ps)); [lia|].
  set (row := map (fun '(i, _, _) => i) ps). set (col := map (fun '(_, j, _) => j) ps). set (vv := map snd ps).
  assert (G : forall k i j v, getz ps k = Some (i, j, v) -> nthz row k = i).
  { intros k i j v Hk. unfold row. apply nthz_eq; rewrite getz_map, Hk; reflexivity. }
  assert (Ok : coo_ok n_node (zlen ps) row col vv).
  { unfold coo_ok, row, col, vv. rewrite !zlen_map. repeat (split; [reflexivity|]). intros k Hk.
    destruct (getz_in ps k Hk) as [[[i j] v] E]. fold row. rewrite (G _ _ _ _ E). eapply Hr, getz_In; eauto. }
  destruct (C12_coo_to_csr n_node (zlen ps) row col vv Hn (proj1 Hz) Ok (alloc (n_node + 1)) (alloc cap) (alloc cap) ord) as (rp & ci & va & E & Hc);
    try (rewrite zlen_alloc; lia); auto.
  exists rp, ci, va. split; auto. intros r Hr0. destruct Hc as (_ & _ & _ & Hc). destruct (Hc r Hr0) as (a & b & A1 & A2 & A3 & _ & P & _).
  exists a, b. do 2 (split; [auto|]). split; [lia|]. rewrite <- (coo_row_index ps r). exact P.
Qed.

Definition num_upto (o : Z) (l : list (Z * Z)) (n : Z) : list (Z * Z * Z) :=
  map (fun k => let '(i, j) := nth (Z.to_nat k) l (0, 0) in (i, j, o + k + 1)) (zrange 0 n).
Lemma num_upto_snoc o l i a b : 0 <= i -> getz l i = Some (a, b) -> num_upto o l (i + 1) = num_upto o l i ++ [(a, b, o + i + 1)].
Proof.
  intros Hi E. unfold num_upto. rewrite zrange_snoc, map_app by lia. f_equal. cbn [map]. unfold getz in E. destruct (0 <=? i); [|discriminate].
  now rewrite (nth_error_nth _ _ _ E).
Qed.
Lemma num_upto_len o l n : 0 <= n -> zlen (num_upto o l n) = n.
Proof. intros. unfold num_upto. rewrite zlen_map, zlen_zrange; lia. Qed.
Lemma num_upto_In o l n i j v : n <= zlen l -> In (i, j, v) (num_upto o l n) -> exists k, 0 <= k < n /\ getz l k = Some (i, j) /\ v = o + k + 1.
Proof.
  intros Hn H. apply in_map_iff in H as (k & E & Hk). apply In_zrange in Hk. destruct (getz_in l k ltac:(lia)) as [[a b] G].
  exists k. split; auto. unfold getz in G |- *. destruct (0 <=? k); [|discriminate]. rewrite (nth_error_nth _ _ _ G) in E. injection E as <- <- <-. auto.
Qed.

Section Bmeta.
Variables (kdim n_node n_thread : Z) (level cluster : mem Z) (J : list int_vec) (pairs : list (Z * Z)) (np0 np1 : Z -> Z).
Hypothesis Hk : 1 <= kdim.
Hypothesis Hnp : forall k n0 n1, getz pairs k = Some (n0, n1) ->
  B_npts level cluster J n0 n1 = Some (np0 k, np1 k) /\ 0 <= np0 k /\ 0 <= np1 k /\ 0 <= n0 < n_node /\ 0 <= n1 < n_node.
Let nrow k := np0 k * kdim.
Let ncol k := np1 k * kdim.
Let size k := nrow k * ncol k.
(** How many pairs have [j] as their first node. *)
Definition firsts (l : list (Z * Z)) (j : Z) : Z := zcount (fun '(a, _) => a =? j) l.

Definition pb_inv (i : Z) (s : bst) : Prop :=
  zlen (b_nrow s) = zlen pairs /\ zlen (b_ncol s) = zlen pairs /\ zlen (b_ptr s) = zlen pairs + 1 /\
  (forall k, 0 <= k < i -> ld (b_nrow s) k = Some (nrow k) /\ ld (b_ncol s) k = Some (ncol k) /\ ld (b_ptr s) (k + 1) = Some (size k)) /\
  ld (b_ptr s) 0 = Some 0 /\ b_tot s = zsumf size 0 i /\
  zlen (b_nr s) = n_node /\ (forall j, 0 <= j < n_node -> ld (b_nr s) j = Some (firsts (firstn (Z.to_nat i) pairs) j)) /\
  b_ps s = num_upto 0 pairs i.

Lemma B_item_per i s : 0 <= i < zlen pairs -> pb_inv i s -> exists s', B_item kdim true level cluster J pairs i s = Some s' /\ pb_inv (i + 1) s'.
Proof.
  intros Hi (Z1 & Z2 & Z3 & A & P0 & T & Zr & R & Ps). destruct (getz_in pairs i Hi) as [[n0 n1] E].
  destruct (Hnp _ _ _ E) as (En & G0 & G1 & N0 & N1). unfold B_item. rewrite E. cbn [bind].
  destruct (bump_spec (b_nr s) n0 _ (R n0 N0)) as (nr1 & -> & Zr1 & L1). cbn [bind]. rewrite En. cbn [bind].
  destruct (st_Some (b_nrow s) i (np0 i * kdim)) as [r' E1]; [lia|]. rewrite E1. cbn [bind].
  destruct (st_Some (b_ncol s) i (np1 i * kdim)) as [c' E2]; [lia|]. rewrite E2. cbn [bind].
  destruct (st_Some (b_ptr s) (i + 1) (np0 i * kdim * (np1 i * kdim))) as [p' E3]; [lia|]. rewrite E3. cbn [bind].
  eexists. split; [reflexivity|]. unfold pb_inv. cbn [b_nrow b_ncol b_ptr b_tot b_nr b_ps].
  pose proof (st_zlen _ _ _ _ E1). pose proof (st_zlen _ _ _ _ E2). pose proof (st_zlen _ _ _ _ E3).
  repeat (split; [lia|]). split.
  { intros k Hk'. rewrite (ld_st _ _ _ _ k E1), (ld_st _ _ _ _ k E2), (ld_st _ _ _ _ (k + 1) E3).
    destruct (Z.eqb_spec i k) as [->|]; [rewrite Z.eqb_refl; auto|]. destruct (Z.eqb_spec (i + 1) (k + 1)); [lia|]. apply A. lia. }
  split; [rewrite (ld_st _ _ _ _ 0 E3); destruct (Z.eqb_spec (i + 1) 0); [lia|auto]|].
  split; [rewrite zsumf_snoc by lia; unfold size, nrow, ncol in *; lia|]. split; [lia|]. split.
  - intros j Hj. rewrite (firstn_snoc_getz _ _ _ E). unfold firsts. rewrite zcount_app, zcount_cons, zcount_nil, L1, (R j Hj). unfold firsts.
    destruct (Z.eqb_spec n0 j) as [->|]; f_equal; lia.
  - rewrite (num_upto_snoc 0 pairs i _ _ (proj1 Hi) E), Ps. reflexivity.
Qed.

(** What the metadata of [n] blocks say: block k is nrow k by ncol k. *)
Definition pmeta_ok (n : Z) (nrow ncol : Z -> Z) (ps : list (Z * Z * Z)) (m : bmeta) : Prop :=
  (forall k, 0 <= k < n -> ld (bm_nrow m) k = Some (nrow k) /\ ld (bm_ncol m) k = Some (ncol k)) /\
  forall r, 0 <= r < n_node -> exists a b, ld (bm_rowptr m) r = Some a /\ ld (bm_rowptr m) (r + 1) = Some b /\ a <= b /\
    Permutation (cells (bm_colidx m) (bm_val m) a b) (index_row ps r).

Lemma gen_B_per ntask ord blk bl : 1 <= ntask -> 1 <= n_node -> 1 <= n_thread -> 1 <= zlen pairs ->
  Permutation ord (zrange 0 n_node) -> iv_holds blk bl ->
  exists m nr v, gen_B_metadata kdim n_node n_thread ntask true level cluster J pairs ord blk = Some (m, nr, v) /\
    pmeta_ok (zlen pairs) nrow ncol (numbered 0 pairs) m /\
    zlen nr = n_node /\ (forall j, 0 <= j < n_node -> ld nr j = Some (firsts pairs j)).
Proof.
  intros Hnt Hnode Ht Hn Ho Hb. unfold gen_B_metadata.
  destruct (st_Some (@alloc Z (zlen pairs + 1)) 0 0) as [p0 E0]; [rewrite zlen_alloc; lia|]. rewrite E0. cbn [bind].
  pose proof (st_zlen _ _ _ _ E0) as Zp0. rewrite zlen_alloc in Zp0 by lia.
  destruct (zfill_spec (fun _ => 0) (fun i m => st m i 0) 0 n_node (alloc n_node)) as (nr0 & En & Zn & Ln); [auto|lia|lia|rewrite zlen_alloc; lia|].
  rewrite En. cbn [bind]. rewrite zlen_alloc in Zn by lia.
  destruct (zfor_inv pb_inv 0 (zlen pairs) (B_item kdim true level cluster J pairs)
    (BSt (alloc (zlen pairs)) (alloc (zlen pairs)) p0 nr0 0 [])) as (s & Es & Z1 & Z2 & Z3 & A & P0 & T & Zr & R & Ps).
  - lia.
  - unfold pb_inv. cbn [b_nrow b_ncol b_ptr b_tot b_nr b_ps]. rewrite !zlen_alloc by lia. repeat (split; [lia|]).
    split; [eapply ld_st_same; eauto|]. split; [now rewrite zsumf_empty by lia|]. split; [auto|]. split; [|reflexivity].
    intros j Hj. rewrite Ln. destruct (Z.leb_spec 0 j); [|lia]. destruct (Z.ltb_spec j n_node); [|lia]. reflexivity.
  - intros i s Hi Hinv. apply B_item_per; auto.
  - rewrite Es. cbn [bind].
    assert (HA : forall k, 0 <= k < zlen pairs -> ld (b_ptr s) (1 + k) = Some (nrow k * ncol k)).
    { intros k Hk'. rewrite Z.add_comm. now apply A. }
    rewrite (read_cells_spec _ _ _ (fun k => nrow k * ncol k)) by (auto; lia). cbn [bind].
    assert (Hpos : forall k, 0 <= k < zlen pairs -> 0 <= nrow k * ncol k).
    { intros k Hk'. destruct (getz_in pairs k Hk') as [[a b] E]. destruct (Hnp _ _ _ E) as (_ & G0 & G1 & _). unfold nrow, ncol. nia. }
    destruct (work_spec (zlen pairs) (map (fun k => nrow (k - 1) * ncol (k - 1)) (zrange 1 (1 + zlen pairs))) (fun k => nrow k * ncol k) (b_tot s) (n_thread * ntask) blk bl)
      as (v & Ev & Wv); auto; try nia.
    { rewrite zlen_map, zlen_zrange by lia. lia. }
    { intros i Hi. rewrite getz_map, getz_zrange by lia. cbn. now replace (1 + i - 1) with i by lia. }
    rewrite Ev. cbn [bind].
    destruct (prefix_sums_spec (zlen pairs) (b_ptr s) (fun k => nrow k * ncol k)) as (p & Ep & Zp & Lp); auto; try lia.
    { intros k Hk'. now apply A. }
    rewrite Ep. cbn [bind].
    destruct (pair_cells n_node (zlen pairs * 2) (b_ps s) ord) as (rp & ci & va & Epi & Hl); auto.
    { rewrite Ps, num_upto_len by lia. lia. }
    { intros i j w Hin. rewrite Ps in Hin. apply num_upto_In in Hin as (k & Hk' & E & _); [|lia]; apply Hnp in E; lia. }
    rewrite Epi. cbn [bind]. eexists _, _, _. split; [reflexivity|]. split; [|split; [auto|]].
    + split; cbn [bm_nrow bm_ncol bm_rowptr bm_colidx bm_val].
      * intros k Hk'. destruct (A k Hk') as (A1 & A2 & _). auto.
      * rewrite Ps in Hl. exact Hl.
    + intros j Hj. rewrite R by auto. f_equal. f_equal. apply firstn_all2. unfold zlen. lia.
Qed.
End Bmeta.

Section Dmeta.
Variables (kdim n_node n_leaf n_thread : Z) (leaves cluster : mem Z) (pairs : list (Z * Z)) (lf cs ce : Z -> Z).
Hypothesis Hk : 1 <= kdim.
Hypothesis Hcl : forall i, 0 <= i < n_node -> ld cluster (2 * i) = Some (cs i) /\ ld cluster (2 * i + 1) = Some (ce i) /\ cs i <= ce i.
Hypothesis Hlf : forall k, 0 <= k < n_leaf -> ld leaves k = Some (lf k) /\ 0 <= lf k < n_node.
Hypothesis Hpr : forall k n0 n1, getz pairs k = Some (n0, n1) -> 0 <= n0 < n_node /\ 0 <= n1 < n_node.
Let np i := ce i - cs i + 1.
Let nrow k := np (d_row n_leaf pairs lf k) * kdim.
Let ncol k := np (d_col n_leaf pairs lf k) * kdim.
Let size k := nrow k * ncol k.
Let n := n_leaf + zlen pairs.

Lemma D_pair_per i s : 0 <= n_leaf -> 0 <= i < zlen pairs -> d_inv kdim n_leaf pairs lf cs ce n_leaf (n_leaf + i) (leaf_entries lf n_leaf ++ num_upto n_leaf pairs i) s ->
  exists s', D_pair_item kdim n_leaf true cluster pairs i s = Some s' /\
    d_inv kdim n_leaf pairs lf cs ce n_leaf (n_leaf + (i + 1)) (leaf_entries lf n_leaf ++ num_upto n_leaf pairs (i + 1)) s'.
Proof.
  intros Hnl Hi (Z1 & Z2 & Z3 & A & P0 & T & Ps). destruct (getz_in pairs i Hi) as [[n0 n1] E]. destruct (Hpr _ _ _ E) as (R0 & R1).
  destruct (Hcl _ R0) as (C1 & C2 & C3). destruct (Hcl _ R1) as (C4 & C5 & C6).
  unfold D_pair_item. rewrite E. cbn [bind]. rewrite C1, C2, C4, C5. cbn [bind]. fold (np n0) (np n1).
  set (ii := i + n_leaf).
  assert (Epi : pair_at pairs (ii - n_leaf) = (n0, n1)) by (unfold pair_at, ii; replace (i + n_leaf - n_leaf) with i by lia; now rewrite E).
  assert (Er : nrow ii = np n0 * kdim) by (unfold nrow, d_row; destruct (Z.ltb_spec ii n_leaf); [lia|]; now rewrite Epi).
  assert (Ec : ncol ii = np n1 * kdim) by (unfold ncol, d_col; destruct (Z.ltb_spec ii n_leaf); [lia|]; now rewrite Epi).
  rewrite <- Er, <- Ec.
  destruct (st_Some (d_nrow s) ii (nrow ii)) as [r' E1]; [lia|]. rewrite E1. cbn [bind].
  destruct (st_Some (d_ncol s) ii (ncol ii)) as [c' E2]; [lia|]. rewrite E2. cbn [bind].
  destruct (st_Some (d_ptr s) (ii + 1) (nrow ii * ncol ii)) as [p' E3]; [lia|]. rewrite E3. cbn [bind].
  eexists. split; [reflexivity|]. unfold d_inv. cbn [d_nrow d_ncol d_ptr d_tot d_ps].
  pose proof (st_zlen _ _ _ _ E1). pose proof (st_zlen _ _ _ _ E2). pose proof (st_zlen _ _ _ _ E3).
  split; [lia|]. split; [lia|]. split; [lia|]. split.
  { intros k Hk'. rewrite (ld_st _ _ _ _ k E1), (ld_st _ _ _ _ k E2), (ld_st _ _ _ _ (k + 1) E3).
    destruct (Z.eqb_spec i (k - n_leaf)) as [Ei|Ei].
    - replace k with ii by (unfold ii; lia). rewrite !Z.eqb_refl. auto.
    - destruct (Z.eqb_spec ii k) as [Eq|]; [unfold ii in Eq; lia|]. destruct (Z.eqb_spec (ii + 1) (k + 1)); [lia|]. apply A. lia. }
  split; [rewrite (ld_st _ _ _ _ 0 E3); destruct (Z.eqb_spec (ii + 1) 0); [lia|auto]|].
  split; [replace (n_leaf + (i + 1)) with (n_leaf + i + 1) by lia; rewrite zsumf_snoc by lia; rewrite T; replace (n_leaf + i) with ii by (unfold ii; lia); reflexivity|].
  rewrite (num_upto_snoc n_leaf pairs i _ _ (proj1 Hi) E), Ps. rewrite <- !app_assoc. replace (ii + 1) with (n_leaf + i + 1) by (unfold ii; lia). reflexivity.
Qed.

Lemma gen_D_per ntask ord blk0 bl0 blk1 bl1 : 1 <= ntask -> 1 <= n_node -> 1 <= n_thread -> 1 <= n_leaf ->
  Permutation ord (zrange 0 n_node) -> iv_holds blk0 bl0 -> iv_holds blk1 bl1 ->
  exists m v0 v1, gen_D_metadata kdim n_node n_leaf n_thread ntask true leaves cluster pairs ord blk0 blk1 = Some (m, v0, v1) /\
    pmeta_ok n_node n nrow ncol (leaf_entries lf n_leaf ++ numbered n_leaf pairs) m.
Proof.
  intros Hnt Hnode Ht Hl Ho Hb0 Hb1. unfold gen_D_metadata. pose proof (zlen_nonneg pairs) as Zp. fold n.
  destruct (st_Some (@alloc Z (n + 1)) 0 0) as [p0 E0]; [rewrite zlen_alloc; lia|]. rewrite E0. cbn [bind].
  pose proof (st_zlen _ _ _ _ E0) as Zp0. rewrite zlen_alloc in Zp0 by lia.
  destruct (zfor_inv (fun i => d_inv kdim n_leaf pairs lf cs ce 0 i (leaf_entries lf i)) 0 n_leaf (D_leaf_item kdim leaves cluster)
    (DSt (alloc n) (alloc n) p0 0 [])) as (s & Es & Hinv).
  - lia.
  - unfold d_inv. cbn [d_nrow d_ncol d_ptr d_tot d_ps]. rewrite !zlen_alloc by lia.
    split; [lia|]. split; [lia|]. split; [lia|]. split; [intros; lia|]. split; [eapply ld_st_same; eauto|]. split; [now rewrite zsumf_empty by lia|reflexivity].
  - intros i s Hi Hinv. eapply D_leaf_item_spec; eauto.
  - rewrite Es. cbn [bind]. destruct Hinv as (Z1 & Z2 & Z3 & A & P0 & T0 & Ps0).
    destruct (zfor_inv (fun i => d_inv kdim n_leaf pairs lf cs ce n_leaf (n_leaf + i) (leaf_entries lf n_leaf ++ num_upto n_leaf pairs i)) 0 (zlen pairs) (D_pair_item kdim n_leaf true cluster pairs)
      (DSt (d_nrow s) (d_ncol s) (d_ptr s) 0 (d_ps s))) as (s' & Es' & Hinv').
    + lia.
    + unfold d_inv. cbn [d_nrow d_ncol d_ptr d_tot d_ps]. split; [auto|]. split; [auto|]. split; [auto|]. split; [intros; apply A; lia|]. split; [auto|].
      split; [now rewrite zsumf_empty by lia|]. rewrite Ps0. unfold num_upto. rewrite zrange_empty by lia. cbn. now rewrite app_nil_r.
    + intros i x Hi Hx. apply D_pair_per; auto. lia.
    + rewrite Es'. cbn [bind]. destruct Hinv' as (Z1' & Z2' & Z3' & A' & P0' & T1 & Ps). fold n in A'. rewrite T0, T1.
      assert (HA : forall k, 0 <= k < n -> ld (d_ptr s') (k + 1) = Some (size k)) by (intros; apply A'; lia).
      assert (Hr : forall k, 0 <= k < n -> 0 <= d_row n_leaf pairs lf k < n_node /\ 0 <= d_col n_leaf pairs lf k < n_node).
      { intros k Hk'. unfold d_row, d_col. destruct (Z.ltb_spec k n_leaf); [split; apply Hlf; lia|].
        unfold pair_at. destruct (getz_in pairs (k - n_leaf)) as [[a b] E]; [lia|]. rewrite E. cbn. eapply Hpr; eauto. }
      assert (Hpos : forall k, 0 <= k < n -> 0 <= size k).
      { intros k Hk'. destruct (Hr k Hk') as (H1 & H2). pose proof (proj2 (proj2 (Hcl _ H1))). pose proof (proj2 (proj2 (Hcl _ H2))).
        unfold size, nrow, ncol, np. apply Z.mul_nonneg_nonneg; apply Z.mul_nonneg_nonneg; lia. }
      rewrite (read_cells_spec _ _ _ size) by (try lia; intros; rewrite Z.add_comm; apply HA; lia). cbn [bind].
      destruct (work_spec n_leaf (map (fun k => size (k - 1)) (zrange 1 (1 + n_leaf))) size (zsumf size 0 n_leaf) (n_thread * ntask) blk0 bl0)
        as (v0 & Ev0 & Wv0); auto; try nia.
      { rewrite zlen_map, zlen_zrange by lia. lia. }
      { intros i Hi. rewrite getz_map, getz_zrange by lia. cbn. now replace (1 + i - 1) with i by lia. }
      { intros i Hi. apply Hpos. lia. }
      match goal with |- context [partition_workload n_leaf ?a ?b _ _] => match type of Ev0 with context [partition_workload n_leaf ?a' ?b' _ _] =>
        change (partition_workload n_leaf a b (n_thread * ntask) blk0) with (partition_workload n_leaf a' b' (n_thread * ntask) blk0) end end.
      rewrite Ev0. cbn [bind].
      rewrite (read_cells_spec _ _ _ (fun k => size (n_leaf + k))) by (try lia; intros; rewrite <- HA by lia; f_equal; lia). cbn [bind].
      destruct (work_spec (zlen pairs) (map (fun k => size (n_leaf + (k - (n_leaf + 1)))) (zrange (n_leaf + 1) (n_leaf + 1 + zlen pairs))) (fun k => size (n_leaf + k))
        (zsumf size n_leaf (n_leaf + zlen pairs)) (n_thread * ntask) blk1 bl1) as (v1 & Ev1 & Wv1); auto; try nia.
      { rewrite zlen_map, zlen_zrange by lia. lia. }
      { intros i Hi. rewrite getz_map, getz_zrange by lia. cbn. f_equal. f_equal. lia. }
      { intros i Hi. apply Hpos. lia. }
      { unfold zsumf. f_equal. replace n_leaf with (n_leaf + 0) at 1 by lia. clear. generalize (zlen pairs). intros z.
        unfold zrange. rewrite !map_map. replace (n_leaf + z - (n_leaf + 0)) with (z - 0) by lia. apply map_ext. intros. f_equal. lia. }
      match goal with |- context [partition_workload (zlen pairs) ?a ?b _ _] => match type of Ev1 with context [partition_workload (zlen pairs) ?a' ?b' _ _] =>
        change (partition_workload (zlen pairs) a b (n_thread * ntask) blk1) with (partition_workload (zlen pairs) a' b' (n_thread * ntask) blk1) end end.
      rewrite Ev1. cbn [bind].
      destruct (prefix_sums_spec n (d_ptr s') size) as (p & Ep & Zp' & Lp); auto; try lia.
      rewrite Ep. cbn [bind].
      assert (Zle : zlen (leaf_entries lf n_leaf) = n_leaf) by (unfold leaf_entries; rewrite zlen_map, zlen_zrange; lia).
      destruct (pair_cells n_node (n_leaf + 2 * zlen pairs) (d_ps s') ord) as (rp & ci & va & Epi & Hlk); auto.
      { rewrite Ps, zlen_app, num_upto_len, Zle by lia. lia. }
      { intros i j w Hin. rewrite Ps in Hin. apply in_app_or in Hin as [Hin|Hin].
        - apply in_map_iff in Hin as (k & E & Hin). apply In_zrange in Hin. injection E as <- <- <-. apply Hlf; lia.
        - apply num_upto_In in Hin as (k & Hk' & E & _); [|lia]; apply Hpr in E; lia. }
      rewrite Epi. cbn [bind]. eexists _, _, _. split; [reflexivity|]. split; cbn [bm_nrow bm_ncol bm_rowptr bm_colidx bm_val].
      * intros k Hk'. destruct (A' k Hk') as (A1 & A2 & _). auto.
      * rewrite Ps in Hlk. exact Hlk.
Qed.
End Dmeta.
