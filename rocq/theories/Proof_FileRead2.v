(** Reading, continued: U, coordinates, skeletons and the look-up tables. *)
From Coq Require Import ZArith QArith List Lia Bool Permutation Sorted.
From Verif Require Import Base Mem Num CRing Conc Model_Utils Spec_Utils Proof_Utils Model_Dense Spec_Dense Proof_Dense Proof_Dense3 Proof_Bucket Model_Partition Spec_Tree Spec_Partition
  Model_Pairs Spec_Pairs Model_Matvec Spec_Matvec Proof_MvTree Model_Build Spec_Build Proof_Build Model_Matmul Model_UJ Model_FileIO Proof_FileIO Proof_FileRead.
Import ListNotations.
Open Scope Z_scope.

(** ** The look-up tables *)
Section Meta.
Variables (nnode nthread ntask : Z) (pairs : list (Z * Z)) (ord : list Z).
Hypothesis Hn : 1 <= nnode.
Hypothesis Ht : 1 <= nthread.
Hypothesis Hk : 1 <= ntask.
Hypothesis Hs : simple_pairs pairs.
Hypothesis Hr : forall k n0 n1, getz pairs k = Some (n0, n1) -> 0 <= n0 < nnode /\ 0 <= n1 < nnode.
Hypothesis Ho : Permutation ord (zrange 0 nnode).

Lemma read_Bmeta_spec nr nc ptr (r c : Z -> Z) blk bl : 1 <= zlen pairs -> iv_holds blk bl -> zlen ptr = zlen pairs + 1 -> ld ptr 0 = Some 0 ->
  (forall k, 0 <= k < zlen pairs -> ld nr k = Some (r k) /\ ld nc k = Some (c k) /\ ld ptr (k + 1) = Some (r k * c k) /\ 0 <= r k /\ 0 <= c k) ->
  exists m cnt v, read_Bmeta nnode nthread ntask pairs nr nc ptr (zsumf (fun k => r k * c k) 0 (zlen pairs)) ord blk = Some (m, cnt, v) /\
    meta_ok nnode (zlen pairs) r c (pair_entries 0 pairs (zlen pairs)) m /\
    zlen cnt = nnode /\ (forall j, 0 <= j < nnode -> ld cnt j = Some (occurs pairs j)) /\
    work_ok v (zlen pairs) (nthread * ntask) (fun k => r k * c k).
Proof.
  intros Hp Hb Zp P0 A. unfold read_Bmeta.
  destruct (zfill_spec (fun _ => 0) (fun i m => st m i 0) 0 nnode (alloc nnode)) as (nr0 & En & Zn & Ln); [auto|lia|lia|rewrite zlen_alloc; lia|].
  rewrite En. cbn [bind]. rewrite zlen_alloc in Zn by lia.
  match goal with |- exists _ _ _, ('(ps, cnt) <- zfor 0 _ ?b ?s; _) = _ /\ _ =>
    destruct (zfor_inv (fun i (x : list (Z * Z * Z) * mem Z) => fst x = pair_entries 0 pairs i /\ zlen (snd x) = nnode /\
      forall j, 0 <= j < nnode -> ld (snd x) j = Some (occurs (firstn (Z.to_nat i) pairs) j)) 0 (zlen pairs) b s) as ([ps cnt] & Es & Ps & Zc & G) end.
  - lia.
  - cbn [fst snd]. split; [unfold pair_entries; now rewrite zrange_empty by lia|]. split; auto. intros j Hj. rewrite Ln. destruct (Z.leb_spec 0 j); [|lia]. destruct (Z.ltb_spec j nnode); [|lia]. reflexivity.
  - intros i [ps cnt] Hi (Ps & Zc & G). cbn [fst snd] in *. destruct (getz_in pairs i Hi) as [[n0 n1] E]. rewrite E. cbn [bind]. destruct (Hr _ _ _ E) as (R0 & R1).
    destruct (bump_spec cnt n0 _ (G n0 R0)) as (c1 & E1 & W1 & L1). rewrite E1. cbn [bind].
    destruct (bump_spec c1 n1 (occurs (firstn (Z.to_nat i) pairs) n1 + if n0 =? n1 then 1 else 0)) as (c2 & E2 & W2 & L2).
    { rewrite L1. destruct (Z.eqb_spec n0 n1) as [->|]; [reflexivity|]. rewrite Z.add_0_r. auto. }
    rewrite E2. cbn [bind]. eexists. split; [reflexivity|]. cbn [fst snd]. split; [|split; [lia|]].
    + rewrite (pair_entries_snoc 0 pairs i (n0, n1)) by (auto; lia). rewrite Ps. unfold both. cbn [fst snd app]. reflexivity.
    + intros j Hj. rewrite L2, L1. rewrite (firstn_snoc_getz _ _ _ E), occurs_app.
      assert (Eo : occurs [(n0, n1)] j = (if n0 =? j then 1 else 0) + if n1 =? j then 1 else 0) by (unfold occurs; rewrite !zcount_cons, !zcount_nil; lia).
      rewrite Eo. destruct (Z.eqb_spec n1 j) as [->|]; [f_equal; destruct (n0 =? j); lia|]. destruct (Z.eqb_spec n0 j) as [->|]; [f_equal; lia|]. rewrite G by auto. f_equal. lia.
  - rewrite Es. cbn [bind fst snd] in *.
    rewrite (read_cells_spec _ _ _ (fun k => r k * c k)) by (try lia; intros k Hk'; rewrite Z.add_comm; now apply A). cbn [bind].
    destruct (work_spec (zlen pairs) (map (fun k => r (k - 1) * c (k - 1)) (zrange 1 (1 + zlen pairs))) (fun k => r k * c k) (zsumf (fun k => r k * c k) 0 (zlen pairs)) (nthread * ntask) blk bl)
      as (v & Ev & Wv); auto; try nia.
    { rewrite zlen_map, zlen_zrange by lia. lia. }
    { intros i Hi. rewrite getz_map, getz_zrange by lia. cbn. now replace (1 + i - 1) with i by lia. }
    { intros i Hi. destruct (A i Hi) as (_ & _ & _ & A1 & A2). nia. }
    rewrite Ev. cbn [bind].
    destruct (prefix_sums_spec (zlen pairs) ptr (fun k => r k * c k)) as (p & Ep & Zp' & Lp); auto; try lia.
    { intros k Hk'. now apply A. }
    rewrite Ep. cbn [bind].
    destruct (pair_index_spec nnode (zlen pairs * 2) ps ord) as (rp & ci & va & Epi & Hl); auto.
    { rewrite Ps, pair_entries_len by lia. lia. }
    { intros i j w Hin. rewrite Ps in Hin. apply pair_entries_In in Hin as (k & Hk' & [(E & _)|(E & _)]); [| |lia]; apply Hr in E; lia. }
    { rewrite Ps. now apply pair_entries_NoDup. }
    rewrite Epi. cbn [bind]. eexists _, _, _. split; [reflexivity|]. split; [|split; [auto|split]].
    + constructor; cbn [bm_nrow bm_ncol bm_ptr bm_total bm_rowptr bm_colidx bm_val]; auto; try (intros k Hk'; now apply A). now rewrite <- Ps.
    + intros j Hj. rewrite G by auto. f_equal. f_equal. apply firstn_all2. unfold zlen. lia.
    + auto.
Qed.

Variables (nleaf : Z) (lf : Z -> Z) (leaves : mem Z).
Hypothesis Hl : 1 <= nleaf.
Hypothesis Hlf : forall k, 0 <= k < nleaf -> ld leaves k = Some (lf k) /\ 0 <= lf k < nnode.
Hypothesis Hinj : forall i j, 0 <= i < nleaf -> 0 <= j < nleaf -> lf i = lf j -> i = j.

Lemma read_Dmeta_spec nr nc ptr (r c : Z -> Z) blk0 bl0 blk1 bl1 : iv_holds blk0 bl0 -> iv_holds blk1 bl1 -> zlen ptr = nleaf + zlen pairs + 1 -> ld ptr 0 = Some 0 ->
  (forall k, 0 <= k < nleaf + zlen pairs -> ld nr k = Some (r k) /\ ld nc k = Some (c k) /\ ld ptr (k + 1) = Some (r k * c k) /\ 0 <= r k /\ 0 <= c k) ->
  exists m v0 v1, read_Dmeta nnode nleaf nthread ntask leaves pairs nr nc ptr (zsumf (fun k => r k * c k) 0 nleaf) (zsumf (fun k => r (nleaf + k) * c (nleaf + k)) 0 (zlen pairs)) ord blk0 blk1 = Some (m, v0, v1) /\
    meta_ok nnode (nleaf + zlen pairs) r c (leaf_entries lf nleaf ++ pair_entries nleaf pairs (zlen pairs)) m /\
    work_ok v0 nleaf (nthread * ntask) (fun k => r k * c k) /\ work_ok v1 (zlen pairs) (nthread * ntask) (fun k => r (nleaf + k) * c (nleaf + k)).
Proof.
  intros Hb0 Hb1 Zp P0 A. unfold read_Dmeta. pose proof (zlen_nonneg pairs) as Zpp.
  match goal with |- exists _ _ _, (ps <- zfor 0 _ ?b ?s; _) = _ /\ _ =>
    destruct (zfor_inv (fun i (x : list (Z * Z * Z)) => x = leaf_entries lf i) 0 nleaf b s) as (ps & Es & ->) end.
  - lia.
  - unfold leaf_entries. now rewrite zrange_empty by lia.
  - intros i x Hi ->. destruct (Hlf i Hi) as (-> & _). cbn [bind]. eexists. split; [reflexivity|]. unfold leaf_entries. now rewrite zrange_snoc, map_app by lia.
  - rewrite Es. cbn [bind].
    match goal with |- exists _ _ _, (ps <- zfor 0 _ ?b ?s; _) = _ /\ _ =>
      destruct (zfor_inv (fun i (x : list (Z * Z * Z)) => x = leaf_entries lf nleaf ++ pair_entries nleaf pairs i) 0 (zlen pairs) b s) as (ps & Es' & Ps) end.
    + lia.
    + unfold pair_entries. rewrite zrange_empty by lia. cbn. now rewrite app_nil_r.
    + intros i x Hi ->. destruct (getz_in pairs i Hi) as [[n0 n1] E]. rewrite E. cbn [bind]. eexists. split; [reflexivity|].
      rewrite (pair_entries_snoc nleaf pairs i (n0, n1)) by (auto; lia). rewrite <- app_assoc. unfold both. cbn [fst snd app]. now rewrite (Z.add_comm nleaf i).
    + rewrite Es'. cbn [bind]. set (size := fun k => r k * c k).
      assert (HA : forall k, 0 <= k < nleaf + zlen pairs -> ld ptr (k + 1) = Some (size k)) by (intros; now apply A).
      assert (Hpos : forall k, 0 <= k < nleaf + zlen pairs -> 0 <= size k) by (intros k Hk'; destruct (A k Hk') as (_ & _ & _ & A1 & A2); unfold size; nia).
      rewrite (read_cells_spec _ _ _ size) by (try lia; intros; rewrite Z.add_comm; apply HA; lia). cbn [bind].
      destruct (work_spec nleaf (map (fun k => size (k - 1)) (zrange 1 (1 + nleaf))) size (zsumf size 0 nleaf) (nthread * ntask) blk0 bl0)
        as (v0 & Ev0 & Wv0); auto; try nia.
      { rewrite zlen_map, zlen_zrange by lia. lia. }
      { intros i Hi. rewrite getz_map, getz_zrange by lia. cbn. now replace (1 + i - 1) with i by lia. }
      { intros i Hi. apply Hpos. lia. }
      fold size. rewrite Ev0. cbn [bind].
      rewrite (read_cells_spec _ _ _ (fun k => size (nleaf + k))) by (try lia; intros; rewrite <- HA by lia; f_equal; lia). cbn [bind].
      destruct (work_spec (zlen pairs) (map (fun k => size (nleaf + (k - (nleaf + 1)))) (zrange (nleaf + 1) (nleaf + 1 + zlen pairs))) (fun k => size (nleaf + k))
        (zsumf (fun k => size (nleaf + k)) 0 (zlen pairs)) (nthread * ntask) blk1 bl1) as (v1 & Ev1 & Wv1); auto; try nia.
      { rewrite zlen_map, zlen_zrange by lia. lia. }
      { intros i Hi. rewrite getz_map, getz_zrange by lia. cbn. f_equal. f_equal. lia. }
      { intros i Hi. apply Hpos. lia. }
      change (fun k => r (nleaf + k) * c (nleaf + k)) with (fun k => size (nleaf + k)). rewrite Ev1. cbn [bind].
      destruct (prefix_sums_spec (nleaf + zlen pairs) ptr size) as (p & Ep & Zp' & Lp); auto; try lia.
      rewrite Ep. cbn [bind].
      assert (Zle : zlen (leaf_entries lf nleaf) = nleaf) by (unfold leaf_entries; rewrite zlen_map, zlen_zrange; lia).
      assert (Lin : forall i j w, In (i, j, w) (leaf_entries lf nleaf) -> exists k, 0 <= k < nleaf /\ i = lf k /\ j = lf k /\ w = k + 1).
      { intros i j w Hin. apply in_map_iff in Hin as (k & E & Hin). apply In_zrange in Hin. injection E as <- <- <-. eauto. }
      destruct (pair_index_spec nnode (nleaf + 2 * zlen pairs) ps ord) as (rp & ci & va & Epi & Hlk); auto.
      { rewrite Ps, zlen_app, pair_entries_len, Zle by lia. lia. }
      { intros i j w Hin. rewrite Ps in Hin. apply in_app_or in Hin as [Hin|Hin].
        - apply Lin in Hin as (k & Hk' & -> & _). apply Hlf; auto.
        - apply pair_entries_In in Hin as (k & Hk' & [(E & _)|(E & _)]); [| |lia]; apply Hr in E; lia. }
      { rewrite Ps, map_app. apply NoDup_app_intro.
        - unfold leaf_entries. rewrite map_map. apply NoDup_map_inj; [|apply NoDup_zrange]. intros i j Hi Hj E. apply In_zrange in Hi, Hj. injection E as E _. auto.
        - now apply pair_entries_NoDup.
        - intros [i j] H1 H2. apply in_map_iff in H1 as ([[i1 j1] w1] & E1 & H1). apply Lin in H1 as (k & Hk' & -> & -> & ->).
          apply in_map_iff in H2 as ([[i2 j2] w2] & E2 & H2). injection E1 as <- <-. injection E2 as -> ->.
          apply pair_entries_In in H2 as (k2 & Hk2 & H2); [|lia]. destruct Hs as [_ Hs']. destruct H2 as [[H2 _]|[H2 _]]; apply getz_In in H2; apply Hs' in H2; tauto. }
      rewrite Epi. cbn [bind]. eexists _, _, _. split; [reflexivity|]. split; [|split; auto].
      constructor; cbn [bm_nrow bm_ncol bm_ptr bm_total bm_rowptr bm_colidx bm_val]; auto; try (intros k Hk'; now apply A); [|now rewrite <- Ps].
      etransitivity; [|symmetry; apply (zsumf_split size 0 nleaf (nleaf + zlen pairs)); lia]. f_equal. unfold zsumf. f_equal. generalize (zlen pairs). intros z.
      unfold zrange. rewrite !map_map. replace (nleaf + z - nleaf) with (z - 0) by lia. apply map_ext. intros. f_equal.
Qed.
End Meta.

(** ** U *)
Section ReadU.
Context {F : num} {K : cring}.
Notation tok := (tok F).
Variables (nnode : Z) (ur uk : Z -> Z) (uv : Z -> Z -> Z -> K).
Hypothesis Hn : 0 <= nnode.
Hypothesis Hu : forall i, 0 <= i < nnode -> 0 <= ur i /\ 0 <= uk i.
Definition holds_full {A} (m : dmat A) nr nc (g : Z -> Z -> A) : Prop :=
  dm_nrow m = nr /\ dm_ncol m = nc /\ dm_ld m = nc /\ dm_size m = nr * nc /\ zlen (dm_data m) = nr * nc /\
  forall r c, 0 <= r < nr -> 0 <= c < nc -> ld (dm_data m) (r * nc + c) = Some (g r c).
Definition uL i : list tok := map TI [i; ur i; uk i].
Definition uB i : list K := blockdata (ur i) (uk i) (uv i).

Lemma read_U_spec (rest : list tok) (restb : list K) : exists U, read_U nnode (concat (map uL (zrange 0 nnode)) ++ rest) (concat (map uB (zrange 0 nnode)) ++ restb) = Some (U, rest, restb) /\
  zlen U = nnode /\ forall i, 0 <= i < nnode -> exists m, getz U i = Some (Some m) /\ holds_full m (ur i) (uk i) (uv i).
Proof.
  unfold read_U.
  match goal with |- exists _, zfor 0 nnode ?b ?s = _ /\ _ =>
    destruct (zfor_inv (fun i (x : list (option (dmat K)) * list tok * list K) => exists U, x = (U, concat (map uL (zrange i nnode)) ++ rest, concat (map uB (zrange i nnode)) ++ restb) /\
      zlen U = nnode /\ forall k, 0 <= k < i -> exists m, getz U k = Some (Some m) /\ holds_full m (ur k) (uk k) (uv k)) 0 nnode b s) as (x & Ex & U & -> & ZU & G) end.
  - auto.
  - eexists. split; [reflexivity|]. split; [apply zlen_arr; auto|intros; lia].
  - intros i x Hi (U & -> & ZU & G). destruct (Hu i Hi) as (H1 & H2). rewrite (zrange_cons i) by lia. cbn [map concat]. rewrite <- !app_assoc. unfold uL at 1. cbn [map app rdi bind].
    assert (Zb : zlen (uB i) = ur i * uk i) by (apply zlen_blockdata; auto).
    assert (Ei : @dm_init K (ur i) (uk i) = mkDM (ur i) (uk i) (uk i) (ur i * uk i) (alloc (ur i * uk i))) by (unfold dm_init; now rewrite !Z.max_r by lia).
    rewrite Ei. cbn [dm_data dm_ld dm_size].
    destruct (fread_spec (alloc (ur i * uk i)) 0 (uB i) (concat (map uB (zrange (i + 1) nnode)) ++ restb)) as (d & E & Zd & G1 & _); [lia|rewrite zlen_alloc by nia; lia|].
    rewrite Zb in E. rewrite E. cbn [bind]. rewrite zlen_alloc in Zd by nia.
    destruct (setz_Some U i (Some (mkDM (ur i) (uk i) (uk i) (ur i * uk i) d)) ltac:(lia)) as [U' EU]. rewrite EU. cbn [bind]. eexists. split; [reflexivity|].
    exists U'. split; [reflexivity|]. split; [rewrite (setz_zlen _ _ _ _ EU); auto|]. intros k Hk. rewrite (getz_setz _ _ _ _ _ EU). destruct (Z.eqb_spec i k) as [<-|Ne].
    + eexists. split; [reflexivity|]. unfold holds_full. cbn [dm_nrow dm_ncol dm_ld dm_size dm_data]. do 5 (split; auto). intros r c Hr Hc.
      specialize (G1 (r * uk i + c) ltac:(nia)). rewrite Z.add_0_l in G1. rewrite G1. apply getz_blockdata; auto.
    + apply G. lia.
  - exists U. rewrite Ex, (zrange_empty nnode nnode) by lia. auto.
Qed.
End ReadU.

Lemma skipn_getz {A} (l : list A) j p : 0 <= j -> getz l j = Some p -> skipn (Z.to_nat j) l = p :: skipn (Z.to_nat (j + 1)) l.
Proof.
  intros Hj. revert l. pattern j. apply natlike_ind; auto; clear j Hj.
  - intros [|a l] E; [apply getz_range in E; zlia|]. rewrite getz_0 in E. injection E as ->. reflexivity.
  - intros j Hj IH [|a l] E; [apply getz_range in E; zlia|]. rewrite getz_cons in E by lia. replace (Z.succ j - 1) with j in E by lia.
    replace (Z.to_nat (Z.succ j)) with (S (Z.to_nat j)) by lia. replace (Z.to_nat (Z.succ j + 1)) with (S (Z.to_nat (j + 1))) by lia. cbn [skipn]. auto.
Qed.

(** ** Coordinates and skeletons *)
Section Coords.
Context {F : num}.
Notation tok := (tok F).
Variables (bits : F -> Z) (unbits : Z -> F).
Variables (np dim : Z) (uc : Z -> Z -> F) (pi : Z -> Z).
Hypothesis Hnp : 1 <= np.
Hypothesis Hdim : 1 <= dim.
Hypothesis Hpi : forall i, 0 <= i < np -> 0 <= pi i < np.
Hypothesis Hsur : forall q, 0 <= q < np -> exists i, 0 <= i < np /\ pi i = q.
Hypothesis Hbits : forall q j, 0 <= q < np -> 0 <= j < dim -> unbits (bits (uc q j)) = uc q j.
Definition cL q : list tok := map (fun j => TH (bits (uc q j))) (zrange 0 dim).

Lemma read_coords_spec rest : exists co cu idx, read_coords unbits np dim (concat (map cL (zrange 0 np)) ++ concat (map (fun i => [TI (pi i)]) (zrange 0 np)) ++ rest) = Some (co, cu, idx, rest) /\
  zlen co = np * dim /\ zlen cu = np * dim /\ zlen idx = np /\
  (forall i, 0 <= i < np -> ld idx i = Some (pi i)) /\
  (forall j i, 0 <= j < dim -> 0 <= i < np -> ld co (j * np + i) = Some (uc (pi i) j)) /\
  (forall j q, 0 <= j < dim -> 0 <= q < np -> ld cu (j * np + q) = Some (uc q j)).
Proof.
  unfold read_coords. set (rest1 := concat (map (fun i => [TI (pi i)]) (zrange 0 np)) ++ rest).
  match goal with |- exists _ _ _, ('(c0, ts) <- zfor 0 np ?b ?s; _) = _ /\ _ =>
    destruct (zfor_inv (fun i (x : mem F * list tok) => exists c, x = (c, concat (map cL (zrange i np)) ++ rest1) /\ zlen c = np * dim /\
      forall q j, 0 <= q < i -> 0 <= j < dim -> ld c (q * dim + j) = Some (uc q j)) 0 np b s) as (x & Ex & c0 & -> & Z0 & G0) end.
  - lia.
  - eexists. split; [reflexivity|]. split; [apply zlen_alloc; nia|intros; lia].
  - intros i x Hi (c & -> & Zc & G). rewrite (zrange_cons i np) by lia. cbn [map concat]. rewrite <- app_assoc. set (rest2 := concat (map cL (zrange (i + 1) np)) ++ rest1).
    match goal with |- exists _, zfor 0 dim ?b ?s = _ /\ _ =>
      destruct (zfor_inv (fun k (x : mem F * list tok) => exists c, x = (c, map (fun j => TH (bits (uc i j))) (zrange k dim) ++ rest2) /\ zlen c = np * dim /\
        forall q j, 0 <= j < dim -> (0 <= q < i \/ q = i /\ j < k) -> ld c (q * dim + j) = Some (uc q j)) 0 dim b s) as (x & Ex & c' & -> & Z' & G') end.
    + lia.
    + exists c. split; [reflexivity|]. split; auto. intros q j Hj [Hq|(_ & Hq)]; [auto|lia].
    + intros k x Hk (c1 & -> & Z1 & G1). rewrite (zrange_cons k dim) by lia. cbn [map app rdh bind]. rewrite Hbits by auto.
      destruct (st_ex c1 (i * dim + k) (uc i k) _ Z1 ltac:(nia)) as (c2 & E2 & W2 & L2). rewrite E2. cbn [bind]. eexists. split; [reflexivity|]. exists c2. split; [reflexivity|]. split; auto.
      intros q j Hj Hq. rewrite L2. destruct (Z.eqb_spec (i * dim + k) (q * dim + j)) as [Eq|Ne].
      * destruct (cell_inj i k q j dim Hk Hj Eq) as (<- & <-). auto.
      * apply G1; auto. destruct Hq as [Hq|(-> & Hq)]; [auto|right; split; [auto|]; destruct (Z.eq_dec j k); [subst; lia|lia]].
    + rewrite Ex. eexists. split; [reflexivity|]. exists c'. rewrite (zrange_empty dim dim) by lia. split; [reflexivity|]. split; auto.
      intros q j Hq Hj. apply G'; auto. lia.
  - rewrite Ex. cbn [bind]. rewrite (zrange_empty np np) by lia. cbn [map concat app]. unfold rest1.
    match goal with |- exists _ _ _, ('(idx, ts) <- zfor 0 np ?b ?s; _) = _ /\ _ =>
      destruct (zfor_inv (fun i (x : mem Z * list tok) => exists d, x = (d, concat (map (fun i => [TI (pi i)]) (zrange i np)) ++ rest) /\ zlen d = np /\
        forall k, 0 <= k < i -> ld d k = Some (pi k)) 0 np b s) as (x & Ex' & idx & -> & Zi & Gi) end.
    + lia.
    + eexists. split; [reflexivity|]. split; [apply zlen_alloc; lia|intros; lia].
    + intros i x Hi (d & -> & Zd & Gd). rewrite (zrange_cons i np) by lia. cbn [map concat app rdi bind].
      destruct (st_ex d i (pi i) _ Zd Hi) as (d' & E' & W' & L'). rewrite E'. cbn [bind]. eexists. split; [reflexivity|]. exists d'. split; [reflexivity|]. split; auto.
      intros k Hk. rewrite L'. destruct (Z.eqb_spec i k) as [->|]; [auto|apply Gd; lia].
    + rewrite Ex'. cbn [bind]. rewrite (zrange_empty np np) by lia. cbn [map concat app].
      set (P := fun i (x : mem F * mem F) => zlen (fst x) = np * dim /\ zlen (snd x) = np * dim /\
        (forall j k, 0 <= j < dim -> 0 <= k < i -> ld (fst x) (j * np + k) = Some (uc (pi k) j)) /\
        (forall j k, 0 <= j < dim -> 0 <= k < i -> ld (snd x) (j * np + pi k) = Some (uc (pi k) j))).
      match goal with |- exists _ _ _, ('(co, cu) <- zfor 0 np ?b ?s; _) = _ /\ _ => destruct (zfor_inv P 0 np b s) as ([co cu] & Ec & Y1 & Y2 & Y3 & Y4) end.
      * lia.
      * unfold P. cbn [fst snd]. rewrite zlen_alloc by nia. do 2 (split; auto). split; intros; lia.
      * intros i x Hi (Y1 & Y2 & Y3 & Y4). rewrite Gi by auto. cbn [bind]. pose proof (Hpi i Hi) as Hp.
        set (Q := fun m (x : mem F * mem F) => zlen (fst x) = np * dim /\ zlen (snd x) = np * dim /\
          (forall j k, 0 <= j < dim -> (0 <= k < i \/ k = i /\ j < m) -> ld (fst x) (j * np + k) = Some (uc (pi k) j)) /\
          (forall j k, 0 <= j < dim -> (0 <= k < i \/ k = i /\ j < m) -> ld (snd x) (j * np + pi k) = Some (uc (pi k) j))).
        match goal with |- exists _, zfor 0 dim ?b ?s = _ /\ _ => destruct (zfor_inv Q 0 dim b s) as (y & Ey & V1 & V2 & V3 & V4) end.
        -- lia.
        -- split; auto. split; auto. split; intros j k Hj [Hk|(-> & Hk)]; auto; lia.
        -- intros m [a b] Hm (V1 & V2 & V3 & V4). cbn [fst snd] in *. rewrite G0 by auto. cbn [bind].
           destruct (st_ex a (m * np + i) (uc (pi i) m) _ V1 ltac:(nia)) as (a' & Ea & Wa & La). rewrite Ea. cbn [bind].
           destruct (st_ex b (m * np + pi i) (uc (pi i) m) _ V2 ltac:(nia)) as (b' & Eb & Wb & Lb). rewrite Eb. cbn [bind]. eexists. split; [reflexivity|]. unfold Q. cbn [fst snd].
           do 2 (split; auto). split; intros j k Hj Hk.
           ++ rewrite La. destruct (Z.eqb_spec (m * np + i) (j * np + k)) as [Eq|Ne]; [destruct (cell_inj m i j k np ltac:(lia) ltac:(lia) Eq) as (<- & <-); auto|].
              apply V3; auto. destruct Hk as [Hk|(-> & Hk)]; [auto|right; split; [auto|]; destruct (Z.eq_dec j m); [subst; lia|lia]].
           ++ rewrite Lb. assert (Hk2 : 0 <= k < np) by (destruct Hk as [Hk|(-> & Hk)]; lia). pose proof (Hpi k Hk2). destruct (Z.eqb_spec (m * np + pi i) (j * np + pi k)) as [Eq|Ne].
              ** destruct (cell_inj m (pi i) j (pi k) np ltac:(lia) ltac:(lia) Eq) as (<- & Ep). now rewrite Ep.
              ** apply V4; auto. destruct Hk as [Hk|(-> & Hk)]; [auto|right; split; [auto|]; destruct (Z.eq_dec j m); [subst; lia|lia]].
        -- rewrite Ey. eexists. split; [reflexivity|]. unfold P. split; auto. split; auto. split; intros j k Hj Hk; [apply V3|apply V4]; auto; lia.
      * rewrite Ec. cbn [bind fst snd] in *. exists co, cu, idx. do 4 (split; auto). split; auto. split; auto. intros j q Hj Hq. destruct (Hsur q Hq) as (i & Hi & <-). auto.
Qed.

Variables (nnode : Z) (js : Z -> list Z) (co : mem F).
Hypothesis Hnode : 0 <= nnode.
Hypothesis Hjs : forall i x, 0 <= i < nnode -> In x (js i) -> 0 <= x < np.
Hypothesis Hco : forall j i, 0 <= j < dim -> 0 <= i < np -> ld co (j * np + i) = Some (uc (pi i) j).
Definition jL i : list tok := map TI ([i; zlen (js i)] ++ js i).

(** The coordinates of the skeleton points, dim-by-count. *)
Definition skel_coords (m : dmat F) (l : list Z) : Prop :=
  dm_nrow m = (if 0 <? zlen l then dim else 0) /\ dm_ncol m = zlen l /\ dm_ld m = zlen l /\ dm_ok m /\
  forall r c, 0 <= r < dim -> 0 <= c < zlen l -> ld (dm_data m) (r * dm_ld m + c) = Some (uc (pi (nthz l c)) r).

Lemma read_skel_spec rest : exists J Jc, read_skel np dim nnode co (concat (map jL (zrange 0 nnode)) ++ rest) = Some (J, Jc, rest) /\
  zlen J = nnode /\ zlen Jc = nnode /\
  forall i, 0 <= i < nnode -> (exists v, getz J i = Some (Some v) /\ iv_holds v (js i)) /\ exists m, getz Jc i = Some (Some m) /\ skel_coords m (js i).
Proof.
  unfold read_skel.
  match goal with |- exists _ _, zfor 0 nnode ?b ?s = _ /\ _ =>
    destruct (zfor_inv (fun i (x : list (option int_vec) * list (option (dmat F)) * list tok) => exists J Jc, x = (J, Jc, concat (map jL (zrange i nnode)) ++ rest) /\
      zlen J = nnode /\ zlen Jc = nnode /\
      forall k, 0 <= k < i -> (exists v, getz J k = Some (Some v) /\ iv_holds v (js k)) /\ exists m, getz Jc k = Some (Some m) /\ skel_coords m (js k)) 0 nnode b s)
      as (x & Ex & J & Jc & -> & Z1 & Z2 & G) end.
  - auto.
  - eexists _, _. split; [reflexivity|]. rewrite !zlen_arr by auto. do 2 (split; auto). intros; lia.
  - intros i x Hi (J & Jc & -> & Z1 & Z2 & G). rewrite (zrange_cons i) by lia. cbn [map concat]. rewrite <- app_assoc. set (rest1 := concat (map jL (zrange (i + 1) nnode)) ++ rest).
    unfold jL at 1. rewrite map_app, <- app_assoc. cbn [map app rdi bind]. set (l := js i) in *. pose proof (zlen_nonneg l) as Zl.
    assert (Go : forall v m, iv_holds v l -> skel_coords m l -> forall J' Jc', setz J i (Some v) = Some J' -> setz Jc i (Some m) = Some Jc' -> zlen J' = nnode /\ zlen Jc' = nnode /\
      forall k, 0 <= k < i + 1 -> (exists v, getz J' k = Some (Some v) /\ iv_holds v (js k)) /\ exists m, getz Jc' k = Some (Some m) /\ skel_coords m (js k)).
    { intros v m Hv Hm J' Jc' E1 E2. rewrite (setz_zlen _ _ _ _ E1), (setz_zlen _ _ _ _ E2). do 2 (split; auto). intros k Hk. rewrite (getz_setz _ _ _ _ _ E1), (getz_setz _ _ _ _ _ E2).
      destruct (Z.eqb_spec i k) as [<-|Ne]; [split; eauto|]. apply G. lia. }
    destruct (Z.ltb_spec 0 (zlen l)) as [Hp|Hz].
    + assert (Ev : iv_init (zlen l) = mkIV (zlen l) 0 (alloc (zlen l))) by (unfold iv_init; destruct (Z.ltb_spec (zlen l) 0); [lia|reflexivity]).
      rewrite Ev. cbn [iv_data iv_cap].
      match goal with |- exists _, ('(d, ts) <- zfor 0 _ ?b ?s; _) = _ /\ _ =>
        destruct (zfor_inv (fun j (y : mem Z * list tok) => exists d, y = (d, map TI (skipn (Z.to_nat j) l) ++ rest1) /\ zlen d = zlen l /\ forall k, 0 <= k < j -> ld d k = getz l k)
          0 (zlen l) b s) as (y & Ey & d & -> & Zd & Gd) end.
      * lia.
      * eexists. split; [reflexivity|]. split; [apply zlen_alloc; lia|intros; lia].
      * intros j y Hj (d & -> & Zd & Gd). destruct (getz_in l j Hj) as [p Ep].
        assert (Es : skipn (Z.to_nat j) l = p :: skipn (Z.to_nat (j + 1)) l).
        { apply skipn_getz; auto. lia. }
        rewrite Es. cbn [map app rdi bind]. destruct (st_ex d j p _ Zd Hj) as (d' & E' & W' & L'). rewrite E'. cbn [bind]. eexists. split; [reflexivity|]. exists d'. split; [reflexivity|]. split; auto.
        intros k Hk. rewrite L'. destruct (Z.eqb_spec j k) as [->|]; [auto|apply Gd; lia].
      * rewrite Ey. cbn [bind]. assert (En : skipn (Z.to_nat (zlen l)) l = []) by (unfold zlen; rewrite Nat2Z.id; apply skipn_all). rewrite En. cbn [map app].
        assert (Er : read_cells d 0 (zlen l) = Some l).
        { rewrite (read_cells_spec _ _ _ (nthz l)) by (try lia; intros k Hk; rewrite Z.add_0_l, Gd by lia; apply getz_nthz; lia). f_equal. apply getz_ext; [rewrite zlen_map, zlen_zrange; lia|].
          intros k Hk. rewrite zlen_map, zlen_zrange in Hk by lia. rewrite getz_map, getz_zrange by lia. cbn [option_map]. rewrite (getz_nthz l k) by lia. do 2 f_equal. lia. }
        rewrite Er. cbn [bind].
        assert (Ei : @dm_init F dim (zlen l) = mkDM dim (zlen l) (zlen l) (dim * zlen l) (alloc (dim * zlen l))) by (unfold dm_init; now rewrite !Z.max_r by lia).
        rewrite Ei. cbn [dm_data dm_ld].
        destruct (gather_cols_spec dim (zlen l) l co (@alloc F (dim * zlen l)) np (zlen l) np (fun j i => uc (pi i) j)) as (g & Eg & Zg & Gg & _).
        { unfold fits. rewrite zlen_alloc by nia. repeat split; try lia; try nia. }
        { intros a b Ha Hb. now apply Hco. }
        { reflexivity. }
        { intros q Hq. eapply Hjs; eauto. }
        rewrite Eg. cbn [bind]. rewrite zlen_alloc in Zg by nia.
        destruct (setz_Some J i (Some (mkIV (zlen l) (zlen l) d)) ltac:(lia)) as [J' EJ]. rewrite EJ. cbn [bind].
        destruct (setz_Some Jc i (Some (dm_set_data (mkDM dim (zlen l) (zlen l) (dim * zlen l) (alloc (dim * zlen l))) g)) ltac:(lia)) as [Jc' EJc]. rewrite EJc. cbn [bind].
        eexists. split; [reflexivity|]. exists J', Jc'. split; [reflexivity|]. refine (Go _ _ _ _ _ _ EJ EJc).
        -- unfold iv_holds. cbn. repeat split; auto; lia.
        -- unfold skel_coords, dm_ok. cbn. destruct (Z.ltb_spec 0 (zlen l)); [|lia]. repeat split; auto.
    + assert (El : l = []) by (destruct l; [auto|zlia]). rewrite El in *. cbn [map app].
      destruct (setz_Some J i (Some (iv_init 1)) ltac:(lia)) as [J' EJ]. rewrite EJ. cbn [bind].
      destruct (setz_Some Jc i (Some (mkDM 0 0 0 (dm_size (@dm_init F dim 1)) (dm_data (@dm_init F dim 1)))) ltac:(lia)) as [Jc' EJc]. rewrite EJc. cbn [bind].
      eexists. split; [reflexivity|]. exists J', Jc'. split; [reflexivity|]. refine (Go _ _ _ _ _ _ EJ EJc).
      * apply iv_holds_init. lia.
      * unfold skel_coords, dm_ok. change (zlen (@nil Z)) with 0. cbn [dm_nrow dm_ncol dm_ld dm_size dm_data Z.ltb Z.compare]. do 3 (split; auto). split; [|intros; lia].
        unfold dm_init. cbn [dm_size dm_data]. rewrite zlen_alloc by nia. auto.
  - exists J, Jc. rewrite Ex, (zrange_empty nnode nnode) by lia. auto.
Qed.
End Coords.
