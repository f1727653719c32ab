(** Storing: the text and the binary file H2P_store_to_file writes, and what the
    two scripts make of the text. *)
From Coq Require Import ZArith QArith List Lia Bool Permutation.
From Verif Require Import Base Mem Num CRing Conc Model_Utils Spec_Utils Model_Dense Spec_Dense Proof_Dense Model_Partition Spec_Tree Spec_Partition Model_Pairs Spec_Pairs
  Model_Matvec Spec_Matvec Proof_MvTree Model_Build Spec_Build Proof_Build Model_Matmul Model_FileIO.
Import ListNotations.
Open Scope Z_scope.

(** ** Lists *)
Lemma mapz_spec {A} lo hi (f : Z -> option A) g : (forall i, lo <= i < hi -> f i = Some (g i)) -> mapz lo hi f = Some (map g (zrange lo hi)).
Proof. intros H. unfold mapz. apply all_some_map. intros x Hx. apply In_zrange in Hx. auto. Qed.

Lemma zlen_seg {A} (f : Z -> A) n : 0 <= n -> zlen (map f (zrange 0 n)) = n.
Proof. intros. rewrite zlen_map, zlen_zrange; lia. Qed.

Lemma getz_seg {A} (P S : list A) (f : Z -> A) n p i : zlen P = p -> 0 <= i < n -> getz (P ++ map f (zrange 0 n) ++ S) (p + i) = Some (f i).
Proof.
  intros Hp Hi. rewrite getz_app2 by zlia. replace (p + i - zlen P) with i by lia.
  rewrite getz_app1 by (rewrite zlen_seg; lia). rewrite getz_map, getz_zrange by lia. reflexivity.
Qed.

Lemma mapz_getz {A} (l : list A) n : zlen l = n -> mapz 0 n (getz l) = Some l.
Proof.
  intros Hn. subst n. destruct l as [|d l0] eqn:E; [reflexivity|]. rewrite <- E. clear E. rewrite (mapz_spec 0 (zlen l) (getz l) (fun i => val d (getz l i))).
  - f_equal. pose proof (zlen_nonneg l). apply getz_ext; [rewrite zlen_seg; lia|]. intros i Hi. rewrite zlen_seg in Hi by lia. rewrite getz_map, getz_zrange by lia. cbn [option_map]. rewrite Z.add_0_l.
    destruct (getz_in l i) as [x Hx]; [lia|]. now rewrite Hx.
  - intros i Hi. destruct (getz_in l i) as [x Hx]; [lia|]. now rewrite Hx.
Qed.

Lemma concat_snoc {A} (l : list (list A)) x : concat (l ++ [x]) = concat l ++ x.
Proof. rewrite concat_app. cbn. now rewrite app_nil_r. Qed.

(** The values of a full nr-by-nc matrix, row by row. *)
Definition blockdata {A} (nr nc : Z) (g : Z -> Z -> A) : list A := map (fun q => g (q / nc) (q mod nc)) (zrange 0 (nr * nc)).
Lemma zlen_blockdata {A} nr nc (g : Z -> Z -> A) : 0 <= nr -> 0 <= nc -> zlen (blockdata nr nc g) = nr * nc.
Proof. intros. unfold blockdata. apply zlen_seg. nia. Qed.
Lemma getz_blockdata {A} nr nc (g : Z -> Z -> A) r c : 0 <= r < nr -> 0 <= c < nc -> getz (blockdata nr nc g) (r * nc + c) = Some (g r c).
Proof.
  intros Hr Hc. unfold blockdata. rewrite getz_map, getz_zrange by nia. cbn -[Z.div Z.modulo].
  do 2 f_equal; rewrite ?Z.add_0_l; [rewrite Z.div_add_l by lia; rewrite Z.div_small by lia; lia|].
  rewrite Z.add_comm, Z.mod_add by lia. apply Z.mod_small. lia.
Qed.
Lemma rowcol q nr nc : 0 <= nr -> 0 <= nc -> 0 <= q < nr * nc -> 0 <= q / nc < nr /\ 0 <= q mod nc < nc /\ q = q / nc * nc + q mod nc.
Proof.
  intros Hr Hc Hq. assert (0 < nc) by nia. pose proof (Z.mod_pos_bound q nc ltac:(lia)). pose proof (Z.div_mod q nc ltac:(lia)).
  assert (0 <= q / nc) by (apply Z.div_pos; lia). assert (q / nc < nr) by (apply Z.div_lt_upper_bound; nia). lia.
Qed.
Lemma read_block {A} (m : mem A) nr nc g : 0 <= nr -> 0 <= nc -> (forall r c, 0 <= r < nr -> 0 <= c < nc -> ld m (r * nc + c) = Some (g r c)) ->
  read_cells m 0 (nr * nc) = Some (blockdata nr nc g).
Proof.
  intros Hr Hc H. rewrite (read_cells_spec m 0 (nr * nc) (fun q => g (q / nc) (q mod nc))).
  - f_equal. unfold blockdata. apply map_ext. intros q. now rewrite Z.sub_0_r.
  - nia.
  - intros q Hq. destruct (rowcol q nr nc Hr Hc Hq) as (H1 & H2 & H3). rewrite <- (H _ _ H1 H2). f_equal. lia.
Qed.

(** ** The files *)
Section Store.
Context {F : num} {K : cring}.
Variables (bits : F -> Z) (unbits : Z -> F) (e6 : F -> F).
Variables (h : h2rep F K) (f : sfields F) (getB getD : Z -> Z -> dmat K -> option (option (dmat K))).
Variables (js : Z -> list Z) (uc : Z -> Z -> F) (pi : Z -> Z).
Hypothesis R : rep_ok h.
Hypothesis Hx : sf_hss f = false /\ sf_xdim f <= h_ptdim h.
Hypothesis HU : forall i U, getz (h_U h) i = Some U -> 0 <= dm_nrow U /\ (h_minlevel h <= level h i -> dm_ld U = dm_ncol U).
Hypothesis HgB : forall k n0 n1 out, getz (h_adm h) k = Some (n0, n1) -> dm_ok out ->
  exists o, getB n0 n1 out = Some (Some o) /\ dm_ok o /\ block_view o false (Bnrow h k) (Bncol h k) (Bval h k).
Hypothesis HgO : forall k n0 n1 out, getz (h_inadm h) k = Some (n0, n1) -> dm_ok out ->
  exists o, getD n0 n1 out = Some (Some o) /\ dm_ok o /\ block_view o false (msize h n0) (msize h n1) (Dval h (h_nleaf h + k)).
Hypothesis HgD : forall k out, 0 <= k < h_nleaf h -> dm_ok out ->
  exists o, getD (leaf h k) (leaf h k) out = Some (Some o) /\ dm_ok o /\ block_view o false (msize h (leaf h k)) (msize h (leaf h k)) (Dval h k).
Hypothesis Hidx : forall i, 0 <= i < h_npoint h -> ld (sf_idx f) i = Some (pi i) /\ 0 <= pi i < h_npoint h.
Hypothesis Hsur : forall q, 0 <= q < h_npoint h -> exists i, 0 <= i < h_npoint h /\ pi i = q.
Hypothesis Hco : forall j i, 0 <= j < h_ptdim h -> 0 <= i < h_npoint h -> ld (sf_coord f) (j * h_npoint h + i) = Some (uc (pi i) j).
Hypothesis HJ : zlen (sf_J f) = h_nnode h /\ forall i v, getz (sf_J f) i = Some v -> iv_holds v (js i).
Notation tok := (tok F).
Notation N := (h_nnode h).
Notation dim := (h_ptdim h).
Notation np := (h_npoint h).
Notation nB := (zlen (h_adm h)).
Notation nI := (zlen (h_inadm h)).
Notation nL := (h_nleaf h).

Definition clf i := val 0 (ld (a_cluster (h_t h)) (i * 2)).
Definition cll i := val 0 (ld (a_cluster (h_t h)) (i * 2 + 1)).
Definition kids i := map (child h i) (zrange 0 (nchild h i)).
Definition nodeZ i : list Z := [i; level h i; clf i; cll i; nchild h i].
Definition nodeL i : list tok := map TI (nodeZ i ++ kids i ++ map (fun _ => -1) (zrange (nchild h i) (h_maxchild h))).
Definition Unr i : Z := match getz (h_U h) i with Some U => dm_nrow U | None => 0 end.
Definition UL i : list Z := [i; Unr i; rank h i].
Definition Ubin i : list K := blockdata (Unr i) (rank h i) (Uval h i).
Definition bp k := pair_at (h_adm h) k.
Definition partial k := if level h (fst (bp k)) =? level h (snd (bp k)) then 0 else 1.
Definition BL k : list Z := [fst (bp k); snd (bp k); Bnrow h k; Bncol h k; partial k].
Definition Bbin k : list K := blockdata (Bnrow h k) (Bncol h k) (Bval h k).
Definition dr k := d_row nL (h_inadm h) (leaf h) k.
Definition dc k := d_col nL (h_inadm h) (leaf h) k.
Definition DL k : list Z := [dr k; dc k; msize h (dr k); msize h (dc k)].
Definition Dbin k : list K := blockdata (msize h (dr k)) (msize h (dc k)) (Dval h k).
Definition coL q : list tok := map (fun j => TH (bits (uc q j))) (zrange 0 dim).
Definition JL i : list Z := [i; zlen (js i)] ++ js i.
Definition headZ part : list Z :=
  [dim; h_kdim h; np; h_kms h; h_kms h; 1; N; N; sf_root f; sf_root f; h_maxlevel h + 1; h_maxlevel h + 1; 0; h_minlevel h; nI; nB; part].
Definition text part (tol : F) : list (list tok) :=
  map (fun z => [TI z]) (headZ part) ++ map nodeL (zrange 0 N) ++ map (fun i => map TI (UL i)) (zrange 0 N) ++
  map (fun k => map TI (BL k)) (zrange 0 nB) ++ map (fun k => map TI (DL k)) (zrange 0 (nL + nI)) ++
  [[TI (sf_mlp f)]; [TE tol]; [TI 1]] ++ map coL (zrange 0 np) ++ map (fun i => [TI (pi i)]) (zrange 0 np) ++
  map (fun i => map TI (JL i)) (zrange 0 N).
Definition binary : list K :=
  concat (map Ubin (zrange 0 N)) ++ concat (map Bbin (zrange 0 nB)) ++ concat (map Dbin (zrange 0 (nL + nI))).

Lemma ld_clf i : 0 <= i < N -> ld (a_cluster (h_t h)) (i * 2) = Some (clf i) /\ ld (a_cluster (h_t h)) (i * 2 + 1) = Some (cll i).
Proof.
  intros Hi. destruct (node_at h R i Hi) as (s & e & hh & (D1 & D2 & _) & _). unfold clf, cll. rewrite Z.add_0_r in D1. now rewrite D1, D2.
Qed.

Lemma node_line i : 0 <= i < N -> store_node_line h i = Some (nodeL i).
Proof.
  intros Hi. unfold store_node_line. destruct (ld_clf i Hi) as (C1 & C2). pose proof (nchild_range h R i Hi).
  rewrite (ld_level h R i Hi), (ld_nchild h R i Hi). rewrite (Z.mul_comm 2 i), C1, C2. cbn [bind].
  rewrite (read_cells_spec _ _ _ (child h i)) by (auto; intros k Hk; now apply child_at).
  cbn [bind]. unfold nodeL, nodeZ, kids. f_equal. apply (f_equal (map TI)). apply (f_equal (app _)). apply (f_equal (fun l => l ++ _)).
  replace (zrange (i * h_maxchild h) (i * h_maxchild h + nchild h i)) with (map (fun k => i * h_maxchild h + k) (zrange 0 (nchild h i))).
  - rewrite map_map. apply map_ext. intros k. f_equal. lia.
  - apply getz_ext; [rewrite zlen_seg, zlen_zrange; lia|]. intros k Hk. rewrite zlen_seg in Hk by lia. rewrite getz_map, !getz_zrange by lia. reflexivity.
Qed.

Lemma U_facts i : 0 <= i < N -> exists U, getz (h_U h) i = Some U /\ dm_nrow U = Unr i /\ dm_ncol U = rank h i /\ 0 <= Unr i /\ 0 <= rank h i /\
  forall r c, 0 <= r < Unr i -> 0 <= c < rank h i -> ld (dm_data U) (r * rank h i + c) = Some (Uval h i r c).
Proof.
  intros Hi. destruct (ro_U _ R) as (ZU & GU). destruct (getz_in (h_U h) i ltac:(lia)) as [U EU]. exists U. unfold Unr, rank, Uval. rewrite EU.
  destruct (HU i U EU) as (H1 & H2). destruct (GU i U EU) as (G1 & G2).
  split; auto. split; auto. split; auto. split; auto.
  destruct (Z.lt_ge_cases (level h i) (h_minlevel h)) as [Hl|Hl]; [rewrite (G1 Hl); split; [lia|intros; lia]|].
  destruct (G2 Hl) as (Q1 & _ & _ & Q4). split; [lia|]. intros r c Hr Hc. rewrite (H2 Hl). destruct (Q4 r c Hr Hc) as (v & Ev). rewrite (H2 Hl) in Ev. now rewrite Ev.
Qed.

Lemma U_line i : 0 <= i < N -> store_U_line h i = Some (map TI (UL i) : list tok, Ubin i).
Proof.
  intros Hi. destruct (U_facts i Hi) as (U & EU & H1 & H2 & H3 & H4 & H5). unfold store_U_line. rewrite EU. cbn [bind]. rewrite H1, H2.
  rewrite (read_block _ _ _ (Uval h i)) by auto. reflexivity.
Qed.

Lemma block_line get more n0 n1 nr nc g (ls : list (list tok)) bin tmp : 0 <= nr -> 0 <= nc ->
  (exists o, get n0 n1 tmp = Some (Some o) /\ dm_ok o /\ block_view o false nr nc g) ->
  exists o, store_block get more n0 n1 (ls, bin, tmp) = Some (ls ++ [map TI ([n0; n1; nr; nc] ++ more)], bin ++ blockdata nr nc g, o) /\ @dm_ok K o.
Proof.
  intros Hr Hc (o & Eo & Ok & (V1 & V2 & _ & V4)). exists o. split; auto. unfold store_block, fetch. rewrite Eo. cbn [bind]. rewrite V1, V2.
  rewrite (read_block _ _ _ g) by auto. reflexivity.
Qed.

Lemma adm_facts k : 0 <= k < nB -> exists n0 n1, getz (h_adm h) k = Some (n0, n1) /\ bp k = (n0, n1) /\ 0 <= n0 < N /\ 0 <= n1 < N /\ n0 <> n1 /\
  0 <= Bnrow h k /\ 0 <= Bncol h k /\ ld (h_Bnrow h) k = Some (Bnrow h k) /\ ld (h_Bncol h) k = Some (Bncol h k).
Proof.
  intros Hk. destruct (getz_in (h_adm h) k Hk) as [[n0 n1] E]. exists n0, n1. split; auto. unfold bp, pair_at. rewrite E. split; auto.
  destruct (ro_adm _ R k n0 n1 E) as (H1 & H2 & H3 & _). do 3 (split; auto). destruct (ro_B _ R k n0 n1 E) as (p & nr & nc & _ & E1 & E2 & E3 & E4 & _).
  unfold Bnrow, Bncol. rewrite E1, E2. cbn [val].
  destruct (U_facts n0 H1) as (_ & _ & _ & _ & _ & A & _). destruct (U_facts n1 H2) as (_ & _ & _ & _ & _ & A' & _).
  destruct (cluster_range h R n0 H1) as (_ & B & _). destruct (cluster_range h R n1 H2) as (_ & B' & _).
  split; [destruct (_ <=? _) in E3; lia|]. split; [destruct (_ <=? _) in E4; lia|auto].
Qed.

Lemma store_B_spec tmp : dm_ok tmp -> exists o, store_B h getB ([], [], tmp) = Some (map (fun k => map TI (BL k)) (zrange 0 nB) : list (list tok), concat (map Bbin (zrange 0 nB)), o) /\ dm_ok o.
Proof.
  intros Ht. unfold store_B.
  destruct (zfor_inv (fun i (x : list (list tok) * list K * dmat K) => exists o, x = (map (fun k => map TI (BL k)) (zrange 0 i), concat (map Bbin (zrange 0 i)), o) /\ dm_ok o)
    0 nB (fun i x => '(n0, n1) <- getz (h_adm h) i; l0 <- ld (a_level (h_t h)) n0; l1 <- ld (a_level (h_t h)) n1;
      store_block getB [if l0 =? l1 then 0 else 1] n0 n1 x) ([], [], tmp)) as (x & Ex & o & -> & Ho).
  - apply zlen_nonneg.
  - exists tmp. split; auto.
  - intros i x Hi (o & -> & Ho). destruct (adm_facts i Hi) as (n0 & n1 & E & Eb & H0 & H1 & _ & S0 & S1 & _). rewrite E. cbn [bind].
    rewrite (ld_level h R n0 H0), (ld_level h R n1 H1). cbn [bind].
    destruct (block_line getB [if level h n0 =? level h n1 then 0 else 1] n0 n1 (Bnrow h i) (Bncol h i) (Bval h i)
      (map (fun k => map TI (BL k)) (zrange 0 i)) (concat (map Bbin (zrange 0 i))) o S0 S1 (HgB i n0 n1 o E Ho)) as (o' & E' & Ho').
    eexists. split; [exact E'|]. exists o'. split; auto. rewrite zrange_snoc by lia. rewrite !map_app, concat_app. cbn [map concat]. rewrite app_nil_r.
    assert (EB : BL i = [n0; n1; Bnrow h i; Bncol h i; if level h n0 =? level h n1 then 0 else 1]) by (unfold BL, partial; now rewrite Eb).
    rewrite EB. reflexivity.
  - rewrite Ex. eauto.
Qed.

Lemma leaf_d k : 0 <= k < nL -> dr k = leaf h k /\ dc k = leaf h k.
Proof. intros Hk. unfold dr, dc, d_row, d_col. destruct (Z.ltb_spec k nL); [auto|lia]. Qed.
Lemma inadm_d k n0 n1 : getz (h_inadm h) k = Some (n0, n1) -> dr (nL + k) = n0 /\ dc (nL + k) = n1.
Proof.
  intros E. pose proof (getz_range _ _ _ E). unfold dr, dc, d_row, d_col. destruct (Z.ltb_spec (nL + k) nL); [lia|]. replace (nL + k - nL) with k by lia.
  unfold pair_at. rewrite E. auto.
Qed.
Lemma nL_nonneg : 0 <= nL.
Proof.
  destruct (ro_dims _ R) as (_ & _ & _ & _ & _ & Hl). destruct (ct_levels _ _ _ _ _ _ (ro_tree _ R) 0 ltac:(lia)) as (ns & _ & H & _). zlia.
Qed.
Lemma d_facts k : 0 <= k < nL + nI -> 0 <= dr k < N /\ 0 <= dc k < N /\ 1 <= msize h (dr k) /\ 1 <= msize h (dc k) /\
  ld (h_Dnrow h) k = Some (msize h (dr k)) /\ ld (h_Dncol h) k = Some (msize h (dc k)).
Proof.
  intros Hk. destruct (Z.lt_ge_cases k nL) as [Hl|Hl].
  - destruct (leaf_d k) as (-> & ->); [lia|]. destruct (leaf_at h R k ltac:(lia)) as (_ & H). destruct (cluster_range h R _ H) as (_ & B & _).
    destruct (ro_D0 _ R k ltac:(lia)) as (p & _ & E1 & E2 & _). auto 10.
  - destruct (getz_in (h_inadm h) (k - nL)) as [[n0 n1] E]; [lia|]. destruct (inadm_d _ _ _ E) as (E1 & E2). replace (nL + (k - nL)) with k in * by lia.
    rewrite E1, E2. destruct (ro_inadm _ R _ _ _ E) as (H1 & H2). destruct (cluster_range h R _ H1) as (_ & B & _). destruct (cluster_range h R _ H2) as (_ & B' & _).
    destruct (ro_D _ R _ _ _ E) as (p & _ & E3 & E4 & _). replace (nL + (k - nL)) with k in * by lia. auto 10.
Qed.

Lemma store_D_spec tmp : dm_ok tmp -> exists o, store_D h getD ([], [], tmp) = Some (map (fun k => map TI (DL k)) (zrange 0 (nL + nI)) : list (list tok), concat (map Dbin (zrange 0 (nL + nI))), o) /\ dm_ok o.
Proof.
  intros Ht. unfold store_D. pose proof nL_nonneg as HL. pose proof (zlen_nonneg (h_inadm h)) as HI.
  set (P := fun off i (x : list (list tok) * list K * dmat K) => exists o, x = (map (fun k => map TI (DL k)) (zrange 0 (off + i)), concat (map Dbin (zrange 0 (off + i))), o) /\ dm_ok o).
  destruct (zfor_inv (P 0) 0 nL (fun i x => node <- ld (a_height_nodes (h_t h)) i; store_block getD [] node node x) ([], [], tmp)) as (x & Ex & o & -> & Ho).
  - auto.
  - exists tmp. split; auto.
  - intros i x Hi (o & -> & Ho). destruct (leaf_at h R i Hi) as (El & Rl). rewrite El. cbn [bind]. destruct (cluster_range h R _ Rl) as (_ & B & _).
    destruct (block_line getD [] (leaf h i) (leaf h i) (msize h (leaf h i)) (msize h (leaf h i)) (Dval h i)
      (map (fun k => map TI (DL k)) (zrange 0 (0 + i))) (concat (map Dbin (zrange 0 (0 + i)))) o ltac:(lia) ltac:(lia) (HgD i o Hi Ho)) as (o' & E' & Ho').
    eexists. split; [exact E'|]. exists o'. split; auto. rewrite !Z.add_0_l. rewrite zrange_snoc by lia. rewrite !map_app, concat_app. cbn [map concat]. rewrite app_nil_r.
    destruct (leaf_d i Hi) as (E1 & E2).
    assert (EB : DL i = [leaf h i; leaf h i; msize h (leaf h i); msize h (leaf h i)]) by (unfold DL; now rewrite E1, E2).
    assert (ED : Dbin i = blockdata (msize h (leaf h i)) (msize h (leaf h i)) (Dval h i)) by (unfold Dbin; now rewrite E1, E2).
    rewrite EB, ED, ?app_nil_r. reflexivity.
  - rewrite Ex. cbn [bind]. rewrite Z.add_0_l.
    destruct (zfor_inv (P nL) 0 nI (fun i x => '(n0, n1) <- getz (h_inadm h) i; store_block getD [] n0 n1 x)
      (map (fun k => map TI (DL k)) (zrange 0 nL), concat (map Dbin (zrange 0 nL)), o)) as (x & Ex' & o2 & -> & Ho2).
    + auto.
    + exists o. rewrite Z.add_0_r. auto.
    + intros i x Hi (o1 & -> & Ho1). destruct (getz_in (h_inadm h) i Hi) as [[n0 n1] E]. rewrite E. cbn [bind].
      destruct (ro_inadm _ R _ _ _ E) as (H1 & H2). destruct (cluster_range h R _ H1) as (_ & B & _). destruct (cluster_range h R _ H2) as (_ & B' & _).
      destruct (block_line getD [] n0 n1 (msize h n0) (msize h n1) (Dval h (nL + i))
        (map (fun k => map TI (DL k)) (zrange 0 (nL + i))) (concat (map Dbin (zrange 0 (nL + i)))) o1 ltac:(lia) ltac:(lia) (HgO i n0 n1 o1 E Ho1)) as (o' & E' & Ho').
      eexists. split; [exact E'|]. exists o'. split; auto. replace (nL + (i + 1)) with (nL + i + 1) by lia. rewrite zrange_snoc by lia. rewrite !map_app, concat_app. cbn [map concat].
      rewrite app_nil_r. destruct (inadm_d i n0 n1 E) as (E1 & E2).
      assert (EB : DL (nL + i) = [n0; n1; msize h n0; msize h n1]) by (unfold DL; now rewrite E1, E2).
      assert (ED : Dbin (nL + i) = blockdata (msize h n0) (msize h n1) (Dval h (nL + i))) by (unfold Dbin; now rewrite E1, E2).
      rewrite EB, ED, ?app_nil_r. reflexivity.
    + rewrite Ex'. eauto.
Qed.

Lemma dim_pos : 1 <= dim.
Proof. destruct (ro_dims _ R) as (H & _). auto. Qed.
Lemma N_pos : 1 <= N.
Proof. destruct (ct_root _ _ _ _ _ _ (ro_tree _ R)) as (H & _). auto. Qed.
Lemma np_pos : 1 <= np.
Proof. pose proof N_pos. destruct (node_at h R 0 ltac:(lia)) as (s & e & hh & _ & H1 & H2 & _). lia. Qed.

Lemma cell_inj i j i' j' d : 0 <= j < d -> 0 <= j' < d -> i * d + j = i' * d + j' -> i = i' /\ j = j'.
Proof. intros. assert (i = i') by nia. subst. lia. Qed.

Lemma coords_back_spec : exists c, coords_back h f = Some c /\ forall q j, 0 <= q < np -> 0 <= j < dim -> ld c (q * dim + j) = Some (uc q j).
Proof.
  pose proof np_pos. pose proof dim_pos. unfold coords_back.
  set (P := fun i (c : mem F) => zlen c = np * dim /\ forall q j, 0 <= q < np -> 0 <= j < dim -> (exists i', 0 <= i' < i /\ pi i' = q) -> ld c (q * dim + j) = Some (uc q j)).
  destruct (zfor_inv P 0 np (fun i c => idx0 <- ld (sf_idx f) i; zfor 0 dim (fun j c => v <- ld (sf_coord f) (j * np + i); st c (idx0 * dim + j) v) c) (alloc (np * dim))) as (c & Ec & Zc & Gc).
  - lia.
  - split; [rewrite zlen_alloc; nia|]. intros q j _ _ (i' & Hi' & _). lia.
  - intros i c Hi (Zc & Gc). destruct (Hidx i Hi) as (Ei & Ri). rewrite Ei. cbn [bind].
    destruct (zfor_inv (fun j' (c : mem F) => zlen c = np * dim /\ forall q j, 0 <= q < np -> 0 <= j < dim ->
        ((exists i', 0 <= i' < i /\ pi i' = q) \/ (q = pi i /\ j < j')) -> ld c (q * dim + j) = Some (uc q j))
      0 dim (fun j c => v <- ld (sf_coord f) (j * np + i); st c (pi i * dim + j) v) c) as (c' & Ec' & Zc' & Gc').
    + lia.
    + split; auto. intros q j Hq Hj [Hp|(_ & Hj')]; [auto|lia].
    + intros j' c1 Hj' (Z1 & G1). rewrite (Hco j' i Hj' Hi). cbn [bind]. destruct (st_Some c1 (pi i * dim + j') (uc (pi i) j')) as [c2 E2]; [nia|].
      exists c2. split; auto. split; [rewrite (st_zlen _ _ _ _ E2); auto|]. intros q j Hq Hj Hp. rewrite (ld_st _ _ _ _ _ E2).
      destruct (Z.eqb_spec (pi i * dim + j') (q * dim + j)) as [Eq|Ne].
      * destruct (cell_inj _ _ _ _ dim Hj' Hj Eq) as (-> & ->). reflexivity.
      * apply G1; auto. destruct Hp as [Hp|(Hp & Hj2)]; [auto|]. right. split; auto. destruct (Z.eq_dec j j'); [subst; lia|lia].
    + rewrite Ec'. eexists. split; [reflexivity|]. split; auto. intros q j Hq Hj (i' & Hi' & Hp). apply Gc'; auto.
      destruct (Z.eq_dec i' i); [subst i'; right; split; [auto|lia]|left; exists i'; split; [lia|auto]].
  - exists c. split; auto.
Qed.

Lemma tail_spec : store_tail bits e6 h f = Some ([[TI (sf_mlp f)]; [TE (e6 (sf_tol f))]; [TI 1]] ++ map coL (zrange 0 np) ++ map (fun i => [TI (pi i)]) (zrange 0 np) ++
  map (fun i => map TI (JL i)) (zrange 0 N)).
Proof.
  unfold store_tail. destruct coords_back_spec as (c & Ec & Gc). rewrite Ec. cbn [bind]. pose proof np_pos. pose proof dim_pos.
  rewrite (mapz_spec 0 np _ coL).
  2:{ intros i Hi. rewrite (read_cells_spec _ _ _ (uc i)) by (auto; lia). cbn [bind]. unfold coL. f_equal. rewrite map_map.
      replace (zrange (i * dim) (i * dim + dim)) with (map (fun k => i * dim + k) (zrange 0 dim)).
      - rewrite map_map. apply map_ext. intros k. do 3 f_equal. lia.
      - apply getz_ext; [rewrite zlen_seg, zlen_zrange; lia|]. intros k Hk. rewrite zlen_seg in Hk by lia. rewrite getz_map, !getz_zrange by lia. reflexivity. }
  cbn [bind]. rewrite (mapz_spec 0 np _ (fun i => [TI (pi i)])) by (intros i Hi; destruct (Hidx i Hi) as (E & _); rewrite E; reflexivity). cbn [bind].
  rewrite (mapz_spec 0 N _ (fun i => map TI (JL i))); [reflexivity|]. intros i Hi. destruct HJ as (ZJ & GJ). destruct (getz_in (sf_J f) i ltac:(lia)) as [v Ev]. rewrite Ev. cbn [bind].
  destruct (GJ i v Ev) as (_ & V2 & _ & V4). rewrite V2.
  assert (X : read_cells (iv_data v) 0 (zlen (js i)) = Some (js i)).
  { rewrite (read_cells_spec _ _ _ (fun k => nthz (js i) k)).
    - f_equal. apply getz_ext; [rewrite zlen_map, zlen_zrange; zlia|]. intros k Hk. rewrite zlen_map, zlen_zrange in Hk by zlia.
      rewrite getz_map, getz_zrange by lia. cbn [option_map]. destruct (getz_in (js i) k ltac:(lia)) as [p Ep]. rewrite Ep. f_equal. apply nthz_eq. rewrite <- Ep. f_equal. lia.
    - apply zlen_nonneg.
    - intros k Hk. rewrite Z.add_0_l, V4 by lia. destruct (getz_in (js i) k Hk) as [p Ep]. rewrite Ep. f_equal. symmetry. now apply nthz_eq. }
  rewrite X. cbn [bind]. reflexivity.
Qed.

Lemma head_spec : exists part, store_head h f = Some (map (fun z => [TI z : tok]) (headZ part)).
Proof.
  unfold store_head. destruct Hx as (Hh & _). rewrite Hh.
  destruct (zfor_inv (fun _ (_ : Z) => True) 0 nB (fun i part => if part =? 1 then Some part else '(n0, n1) <- getz (h_adm h) i;
            l0 <- ld (a_level (h_t h)) n0; l1 <- ld (a_level (h_t h)) n1; Some (if l0 =? l1 then 0 else 1)) 0) as (part & E & _); auto.
  - apply zlen_nonneg.
  - intros i part Hi _. destruct (part =? 1); [eauto|]. destruct (adm_facts i Hi) as (n0 & n1 & E & _ & H0 & H1 & _). rewrite E. cbn [bind].
    rewrite (ld_level h R n0 H0), (ld_level h R n1 H1). cbn [bind]. eauto.
  - exists part. rewrite E. reflexivity.
Qed.

Theorem store_spec : exists part, store_to_file bits e6 h f getB getD = Some (Some (text part (e6 (sf_tol f)), binary)).
Proof.
  destruct head_spec as (part & Eh). exists part. unfold store_to_file. destruct Hx as (_ & Hd). destruct (Z.ltb_spec dim (sf_xdim f)); [lia|].
  rewrite Eh. cbn [bind]. rewrite (mapz_spec 0 N _ nodeL) by (intros; now apply node_line). cbn [bind].
  rewrite (mapz_spec 0 N _ (fun i => (map TI (UL i) : list tok, Ubin i))) by (intros; now apply U_line). cbn [bind].
  destruct (store_B_spec (dm_init 4096 4096) (dm_init_ok _ _)) as (o & EB & Ho). rewrite EB. cbn [bind].
  destruct (store_D_spec o Ho) as (o' & ED & Ho'). rewrite ED. cbn [bind]. rewrite tail_spec. cbn [bind]. unfold text, binary. rewrite !map_map. reflexivity.
Qed.

(** ** The scripts *)
Lemma raw_ints_spec (pre mid post : list Z) a b : zlen pre = a -> b = a + zlen mid -> raw_ints (map (@TI F) (pre ++ mid ++ post)) a b = Some mid.
Proof.
  intros Ha Hb. unfold raw_ints. destruct mid as [|d m0] eqn:Em; [unfold mapz; rewrite zrange_empty by zlia; reflexivity|]. rewrite <- Em in *. clear Em.
  rewrite (mapz_spec a b _ (fun j => val d (getz mid (j - a)))).
  - f_equal. pose proof (zlen_nonneg mid). apply getz_ext; [rewrite zlen_map, zlen_zrange; lia|]. intros i Hi. rewrite zlen_map, zlen_zrange in Hi by lia.
    rewrite getz_map, getz_zrange by lia. cbn [option_map]. destruct (getz_in mid i) as [x Hx']; [lia|]. replace (a + i - a) with i by lia. now rewrite Hx'.
  - intros j Hj. rewrite getz_map, getz_app2 by lia. rewrite Ha. rewrite getz_app1 by lia. destruct (getz_in mid (j - a)) as [x Hx']; [lia|]. now rewrite Hx'.
Qed.
Lemma raw_ints_all (l : list Z) n : zlen l = n -> raw_ints (map (@TI F) l) 0 n = Some l.
Proof. intros Hn. pose proof (raw_ints_spec [] l [] 0 n eq_refl ltac:(lia)) as X. cbn [app] in X. now rewrite app_nil_r in X. Qed.

Lemma getz_concat {A B} (g : A -> list B) d l : (forall x, In x l -> zlen (g x) = d) -> forall i j, 0 <= i < zlen l -> 0 <= j < d ->
  getz (concat (map g l)) (i * d + j) = (x <- getz l i; getz (g x) j).
Proof.
  induction l as [|y l IH]; intros Hl i j Hi Hj; [zlia|]. cbn [map concat]. rewrite zlen_cons in Hi.
  assert (Hy : zlen (g y) = d) by (apply Hl; now left).
  destruct (Z.eq_dec i 0) as [->|Ne].
  - rewrite getz_0. cbn [bind]. rewrite getz_app1 by lia. reflexivity.
  - rewrite getz_cons by lia. rewrite getz_app2 by nia. rewrite Hy. replace (i * d + j - d) with ((i - 1) * d + j) by lia. apply IH; auto; [|lia]. intros x Hx'. apply Hl. now right.
Qed.

Lemma leaf_count : zcount (fun i => nchild h i =? 0) (zrange 0 N) = nL.
Proof.
  destruct (ro_dims _ R) as (_ & _ & _ & _ & _ & Hl). destruct (ct_heights _ _ _ _ _ _ (ro_tree _ R) 0 ltac:(lia)) as (ns & C & _ & _ & In_ & S).
  rewrite (ct_nleaf _ _ _ _ _ _ (ro_tree _ R)) in C. injection C as C. rewrite C. unfold zcount.
  assert (P : Permutation (filter (fun i => nchild h i =? 0) (zrange 0 N)) ns).
  { apply NoDup_Permutation.
    - apply NoDup_filter, NoDup_zrange.
    - apply NoDup_nth_error. intros a b Ha E. destruct (Nat.lt_trichotomy a b) as [Hlt|[->|Hlt]]; auto; exfalso.
      + destruct (nth_error ns a) as [x|] eqn:Ex; [|apply nth_error_None in Ex; lia].
        specialize (S (Z.of_nat a) (Z.of_nat b) x x ltac:(lia)). unfold getz in S. rewrite !Nat2Z.id in S.
        destruct (Z.leb_spec 0 (Z.of_nat a)); [|lia]. destruct (Z.leb_spec 0 (Z.of_nat b)); [|lia]. specialize (S Ex (eq_sym E)). lia.
      + destruct (nth_error ns a) as [x|] eqn:Ex; [|apply nth_error_None in Ex; lia].
        specialize (S (Z.of_nat b) (Z.of_nat a) x x ltac:(lia)). unfold getz in S. rewrite !Nat2Z.id in S.
        destruct (Z.leb_spec 0 (Z.of_nat a)); [|lia]. destruct (Z.leb_spec 0 (Z.of_nat b)); [|lia]. specialize (S (eq_sym E) Ex). lia.
    - intros i. rewrite filter_In, In_zrange, In_. split.
      + intros (Hi & Hz). split; auto. destruct (ct_node _ _ _ _ _ _ (ro_tree _ R) i Hi) as (s & e & lv & hh & nc & (_ & _ & _ & D4 & D5) & _ & _ & _ & _ & _ & Hiff).
        unfold nchild in Hz. rewrite D5 in Hz. cbn [val] in Hz. apply Z.eqb_eq in Hz. rewrite D4. f_equal. tauto.
      + intros (Hi & Hz). split; auto. destruct (ct_node _ _ _ _ _ _ (ro_tree _ R) i Hi) as (s & e & lv & hh & nc & (_ & _ & _ & D4 & D5) & _ & _ & _ & _ & _ & Hiff).
        unfold nchild. rewrite D5. cbn [val]. apply Z.eqb_eq. rewrite D4 in Hz. injection Hz as Hz. tauto. }
  apply Permutation_length in P. unfold zlen. now rewrite P.
Qed.
Lemma leaf_loop {S} (body : Z -> S -> option S) (g : Z -> S) : (forall i, 0 <= i < N -> body i (g i) = Some (g (i + 1))) -> zfor 0 N body (g 0) = Some (g N).
Proof.
  intros H. pose proof N_pos. destruct (zfor_inv (fun i s => s = g i) 0 N body (g 0)) as (s & E & ->); auto; [lia|]. intros i s Hi ->. rewrite H by lia. eauto.
Qed.

Definition jm part : jmeta := JMeta (h_kms h) (h_kms h) 1 N N (sf_root f) (sf_root f) (h_maxlevel h + 1) (h_maxlevel h + 1) (nI + nL) nB part
  (map (fun i => (nodeZ i, kids i)) (zrange 0 N)) (map UL (zrange 0 N)) (map BL (zrange 0 nB)) (map DL (zrange 0 (nL + nI))).
Definition ja (tol : F) : jaux F := JAux dim (h_kdim h) np 0 (h_minlevel h) (sf_mlp f) tol 1
  (concat (map (fun q => map (uc q) (zrange 0 dim)) (zrange 0 np))) (map pi (zrange 0 np)) (map (fun i => ([i; zlen (js i)], js i)) (zrange 0 N)).

Hypothesis Hbits : forall q j, 0 <= q < np -> 0 <= j < dim -> 2 ^ 60 <= bits (uc q j) < 2 ^ 64 /\ unbits (bits (uc q j)) = uc q j.

Lemma zlen_kids i : 0 <= i < N -> zlen (kids i) = nchild h i.
Proof. intros Hi. apply zlen_seg. now apply nchild_range. Qed.

(** The lines of the text. *)
Section Lines.
Variables (part : Z) (tol : F).
Notation T := (text part tol).
Ltac zl := rewrite ?zlen_seg, ?zlen_map by (pose proof N_pos; pose proof np_pos; pose proof nL_nonneg; pose proof (zlen_nonneg (h_adm h)); pose proof (zlen_nonneg (h_inadm h)); lia);
  change (zlen (headZ part)) with 17; pose proof N_pos; pose proof np_pos; pose proof nL_nonneg; pose proof (zlen_nonneg (h_adm h)); pose proof (zlen_nonneg (h_inadm h)); lia.
Ltac skip := rewrite getz_app2 by zl; rewrite ?zlen_seg, ?zlen_map by zl; change (zlen (headZ part)) with 17.
Lemma T_head k z : getz (headZ part) k = Some z -> getz T k = Some [TI z].
Proof.
  intros H. pose proof (getz_range _ _ _ H). unfold text. rewrite getz_app1 by (rewrite zlen_map; lia). now rewrite getz_map, H.
Qed.
Lemma T_node i : 0 <= i < N -> getz T (17 + i) = Some (nodeL i).
Proof.
  intros Hi. unfold text. skip. rewrite getz_app1 by zl. replace (17 + i - 17) with i by lia. now rewrite getz_map, getz_zrange by lia.
Qed.
Lemma T_U i : 0 <= i < N -> getz T (17 + N + i) = Some (map TI (UL i)).
Proof.
  intros Hi. unfold text. do 2 skip. rewrite getz_app1 by zl. replace (17 + N + i - 17 - N) with i by lia. now rewrite getz_map, getz_zrange by lia.
Qed.
Lemma T_B i : 0 <= i < nB -> getz T (17 + N + N + i) = Some (map TI (BL i)).
Proof.
  intros Hi. unfold text. do 3 skip. rewrite getz_app1 by zl. replace (17 + N + N + i - 17 - N - N) with i by lia. now rewrite getz_map, getz_zrange by lia.
Qed.
Lemma T_D i : 0 <= i < nL + nI -> getz T (17 + N + N + nB + i) = Some (map TI (DL i)).
Proof.
  intros Hi. unfold text. do 4 skip. rewrite getz_app1 by zl. replace (17 + N + N + nB + i - 17 - N - N - nB) with i by lia. now rewrite getz_map, getz_zrange by lia.
Qed.
Notation row := (17 + N + N + nB + (nL + nI)).
Lemma T_m i : 0 <= i < 3 -> getz T (row + i) = getz [[TI (sf_mlp f)]; [TE tol]; [TI 1]] i.
Proof.
  intros Hi. unfold text. do 5 skip. rewrite getz_app1 by (change (i < 3 \/ row + i - 17 - N - N - nB - (nL + nI) < 3)%Z || change (zlen [[TI (sf_mlp f)]; [TE tol]; [TI 1]]) with 3; lia). f_equal. lia.
Qed.
Lemma T_c i : 0 <= i < np -> getz T (row + 3 + i) = Some (coL i).
Proof.
  intros Hi. unfold text. do 5 skip. rewrite getz_app2 by (change (zlen [[TI (sf_mlp f)]; [TE tol]; [TI 1]]) with 3; lia). change (zlen [[TI (sf_mlp f)]; [TE tol]; [TI 1]]) with 3.
  rewrite getz_app1 by zl. match goal with |- getz _ ?k = _ => replace k with i by lia end. now rewrite getz_map, getz_zrange by lia.
Qed.
Lemma T_i i : 0 <= i < np -> getz T (row + 3 + np + i) = Some [TI (pi i)].
Proof.
  intros Hi. unfold text. do 5 skip. rewrite getz_app2 by (change (zlen [[TI (sf_mlp f)]; [TE tol]; [TI 1]]) with 3; lia). change (zlen [[TI (sf_mlp f)]; [TE tol]; [TI 1]]) with 3.
  skip. rewrite getz_app1 by zl. match goal with |- getz _ ?k = _ => replace k with i by lia end. now rewrite getz_map, getz_zrange by lia.
Qed.
Lemma T_J i : 0 <= i < N -> getz T (row + 3 + np + np + i) = Some (map TI (JL i)).
Proof.
  intros Hi. pose proof np_pos. unfold text. do 5 skip. rewrite getz_app2 by (change (zlen [[TI (sf_mlp f)]; [TE tol]; [TI 1]]) with 3; lia). change (zlen [[TI (sf_mlp f)]; [TE tol]; [TI 1]]) with 3.
  do 2 skip. match goal with |- getz _ ?k = _ => replace k with i by lia end. now rewrite getz_map, getz_zrange by lia.
Qed.
End Lines.

Theorem to_json part tol : txt_to_json unbits (text part tol) = Some (jm part, ja tol).
Proof.
  pose proof nL_nonneg. pose proof np_pos. pose proof N_pos. pose proof dim_pos. pose proof (zlen_nonneg (h_inadm h)). pose proof (zlen_nonneg (h_adm h)).
  unfold txt_to_json, line_int. set (T := text part tol).
  assert (Hh : forall k z, getz (headZ part) k = Some z -> (l <- getz T k; match l with [TI z] => Some z | _ => None end) = Some z).
  { intros k z Hk. unfold T. now rewrite (T_head part tol k z Hk). }
  rewrite (Hh 0 dim eq_refl), (Hh 1 (h_kdim h) eq_refl), (Hh 2 np eq_refl), (Hh 3 (h_kms h) eq_refl), (Hh 4 (h_kms h) eq_refl), (Hh 5 1 eq_refl), (Hh 6 N eq_refl), (Hh 7 N eq_refl),
    (Hh 8 (sf_root f) eq_refl), (Hh 9 (sf_root f) eq_refl), (Hh 10 (h_maxlevel h + 1) eq_refl), (Hh 11 (h_maxlevel h + 1) eq_refl), (Hh 12 0 eq_refl), (Hh 13 (h_minlevel h) eq_refl),
    (Hh 14 nI eq_refl), (Hh 15 nB eq_refl), (Hh 16 part eq_refl). cbn [bind].
  match goal with |- context [zfor 0 N ?b _] => pose proof (leaf_loop b (fun m => (map (fun i => (nodeZ i, kids i)) (zrange 0 m), zcount (fun i => nchild h i =? 0) (zrange 0 m)))) as X end.
  cbv beta in X. change (zrange 0 0) with (@nil Z) in X. rewrite zcount_nil in X. cbn [map] in X. rewrite X; clear X.
  2:{ intros i Hi. unfold T. rewrite (T_node part tol i Hi). cbn [bind]. unfold nodeL.
      pose proof (raw_ints_spec [] (nodeZ i) (kids i ++ map (fun _ => -1) (zrange (nchild h i) (h_maxchild h))) 0 5 eq_refl eq_refl) as X0. rewrite app_nil_l in X0. rewrite X0. cbn [bind]. change (getz (nodeZ i) 4) with (Some (nchild h i)). cbn [bind].
      rewrite (raw_ints_spec (nodeZ i) (kids i) (map (fun _ => -1) (zrange (nchild h i) (h_maxchild h))) 5 (5 + nchild h i) eq_refl) by (rewrite zlen_kids; auto). cbn [bind].
      rewrite zrange_snoc by lia. rewrite map_app, zcount_app, zcount_cons, zcount_nil. cbn [map]. destruct (nchild h i =? 0); do 2 f_equal; lia. }
  cbn [bind]. rewrite leaf_count.
  rewrite (mapz_spec 0 N _ UL) by (intros i Hi; unfold T; rewrite T_U by auto; cbn [bind]; now apply raw_ints_all). cbn [bind].
  rewrite (mapz_spec 0 nB _ BL) by (intros i Hi; unfold T; rewrite T_B by auto; cbn [bind]; now apply raw_ints_all). cbn [bind].
  rewrite (Z.add_comm nI nL).
  rewrite (mapz_spec 0 (nL + nI) _ DL) by (intros i Hi; unfold T; rewrite T_D by auto; cbn [bind]; now apply raw_ints_all). cbn [bind].
  unfold T. pose proof (T_m part tol 0 ltac:(lia)) as M0. rewrite Z.add_0_r in M0. rewrite M0, (T_m part tol 1), (T_m part tol 2) by lia. cbn [getz Z.leb Z.to_nat nth_error bind]. fold T.
  change (getz [[TI (sf_mlp f)]; [TE tol]; [TI 1]] 0) with (Some [@TI F (sf_mlp f)]). change (getz [[TI (sf_mlp f)]; [TE tol]; [TI 1]] 1) with (Some [TE tol]).
  change (getz [[TI (sf_mlp f)]; [TE tol]; [TI 1]] 2) with (Some [@TI F 1]). cbn [bind].
  rewrite (mapz_spec 0 np _ (fun q => map (uc q) (zrange 0 dim))).
  2:{ intros q Hq. unfold T. rewrite T_c by auto. cbn [bind]. apply mapz_spec. intros j Hj. unfold coL. rewrite getz_map, getz_zrange by lia. cbn [option_map bind hex_to_double].
      rewrite Z.add_0_l. destruct (Hbits q j Hq Hj) as (B & ->). destruct (Z.leb_spec (2 ^ 60) (bits (uc q j))); [|lia]. destruct (Z.ltb_spec (bits (uc q j)) (2 ^ 64)); [|lia]. reflexivity. }
  cbn [bind]. rewrite (mapz_spec 0 np _ pi) by (intros i Hi; unfold T; rewrite T_i by auto; reflexivity). cbn [bind].
  rewrite (mapz_spec 0 N _ (fun i => ([i; zlen (js i)], js i))).
  2:{ intros i Hi. unfold T. rewrite T_J by auto. cbn [bind]. unfold JL.
      pose proof (raw_ints_spec [] [i; zlen (js i)] (js i) 0 2 eq_refl eq_refl) as X. cbn [app] in X. change ([i; zlen (js i)] ++ js i) with (i :: zlen (js i) :: js i). rewrite X. cbn [bind].
      change (getz [i; zlen (js i)] 1) with (Some (zlen (js i))). cbn [bind].
      pose proof (raw_ints_spec [i; zlen (js i)] (js i) [] 2 (2 + zlen (js i)) eq_refl eq_refl) as Y. rewrite app_nil_r in Y. cbn [app] in Y. rewrite Y. reflexivity. }
  cbn [bind]. unfold jm, ja. now rewrite (Z.add_comm nI nL).
Qed.

(** ... but not if some coordinate has a zero as its first hexadecimal digit. *)
Lemma all_some_none {A} (l : list (option A)) : In None l -> all_some l = None.
Proof. induction l as [|[x|] l IH]; intros H; [contradiction| |reflexivity]. destruct H as [H|H]; [discriminate|]. cbn [all_some]. now rewrite IH. Qed.
Lemma mapz_none {A} lo hi (g : Z -> option A) k : lo <= k < hi -> g k = None -> mapz lo hi g = None.
Proof. intros Hk Hg. unfold mapz. apply all_some_none. rewrite <- Hg. apply in_map. now apply In_zrange. Qed.
Theorem to_json_fails part tol q0 j0 : 0 <= q0 < np -> 0 <= j0 < dim -> bits (uc q0 j0) < 2 ^ 60 -> txt_to_json unbits (text part tol) = None.
Proof. clear Hbits. intros Hq0 Hj0 Hlow.
  pose proof nL_nonneg. pose proof np_pos. pose proof N_pos. pose proof dim_pos. pose proof (zlen_nonneg (h_inadm h)). pose proof (zlen_nonneg (h_adm h)).
  unfold txt_to_json, line_int. set (T := text part tol).
  assert (Hh : forall k z, getz (headZ part) k = Some z -> (l <- getz T k; match l with [TI z] => Some z | _ => None end) = Some z).
  { intros k z Hk. unfold T. now rewrite (T_head part tol k z Hk). }
  rewrite (Hh 0 dim eq_refl), (Hh 1 (h_kdim h) eq_refl), (Hh 2 np eq_refl), (Hh 3 (h_kms h) eq_refl), (Hh 4 (h_kms h) eq_refl), (Hh 5 1 eq_refl), (Hh 6 N eq_refl), (Hh 7 N eq_refl),
    (Hh 8 (sf_root f) eq_refl), (Hh 9 (sf_root f) eq_refl), (Hh 10 (h_maxlevel h + 1) eq_refl), (Hh 11 (h_maxlevel h + 1) eq_refl), (Hh 12 0 eq_refl), (Hh 13 (h_minlevel h) eq_refl),
    (Hh 14 nI eq_refl), (Hh 15 nB eq_refl), (Hh 16 part eq_refl). cbn [bind].
  match goal with |- context [zfor 0 N ?b _] => pose proof (leaf_loop b (fun m => (map (fun i => (nodeZ i, kids i)) (zrange 0 m), zcount (fun i => nchild h i =? 0) (zrange 0 m)))) as X end.
  cbv beta in X. change (zrange 0 0) with (@nil Z) in X. rewrite zcount_nil in X. cbn [map] in X. rewrite X; clear X.
  2:{ intros i Hi. unfold T. rewrite (T_node part tol i Hi). cbn [bind]. unfold nodeL.
      pose proof (raw_ints_spec [] (nodeZ i) (kids i ++ map (fun _ => -1) (zrange (nchild h i) (h_maxchild h))) 0 5 eq_refl eq_refl) as X0. rewrite app_nil_l in X0. rewrite X0. cbn [bind]. change (getz (nodeZ i) 4) with (Some (nchild h i)). cbn [bind].
      rewrite (raw_ints_spec (nodeZ i) (kids i) (map (fun _ => -1) (zrange (nchild h i) (h_maxchild h))) 5 (5 + nchild h i) eq_refl) by (rewrite zlen_kids; auto). cbn [bind].
      rewrite zrange_snoc by lia. rewrite map_app, zcount_app, zcount_cons, zcount_nil. cbn [map]. destruct (nchild h i =? 0); do 2 f_equal; lia. }
  cbn [bind]. rewrite leaf_count.
  rewrite (mapz_spec 0 N _ UL) by (intros i Hi; unfold T; rewrite T_U by auto; cbn [bind]; now apply raw_ints_all). cbn [bind].
  rewrite (mapz_spec 0 nB _ BL) by (intros i Hi; unfold T; rewrite T_B by auto; cbn [bind]; now apply raw_ints_all). cbn [bind].
  rewrite (Z.add_comm nI nL).
  rewrite (mapz_spec 0 (nL + nI) _ DL) by (intros i Hi; unfold T; rewrite T_D by auto; cbn [bind]; now apply raw_ints_all). cbn [bind].
  unfold T. pose proof (T_m part tol 0 ltac:(lia)) as M0. rewrite Z.add_0_r in M0. rewrite M0, (T_m part tol 1), (T_m part tol 2) by lia. cbn [getz Z.leb Z.to_nat nth_error bind]. fold T.
  change (getz [[TI (sf_mlp f)]; [TE tol]; [TI 1]] 0) with (Some [@TI F (sf_mlp f)]). change (getz [[TI (sf_mlp f)]; [TE tol]; [TI 1]] 1) with (Some [TE tol]).
  change (getz [[TI (sf_mlp f)]; [TE tol]; [TI 1]] 2) with (Some [@TI F 1]). cbn [bind].
  match goal with |- context [mapz 0 np ?g] => rewrite (mapz_none 0 np g q0 Hq0); [reflexivity|] end.
  unfold T. rewrite T_c by auto. cbn [bind]. apply (mapz_none 0 dim _ j0 Hj0). unfold coL. rewrite getz_map, getz_zrange by lia. cbn [option_map bind hex_to_double].
  rewrite Z.add_0_l. destruct (Z.leb_spec (2 ^ 60) (bits (uc q0 j0))); [lia|]. reflexivity.
Qed.


Theorem to_txt part tol : json_to_txt bits e6 (jm part) (ja tol) = Some (text part (e6 tol)).
Proof.
  pose proof nL_nonneg. pose proof np_pos. pose proof N_pos. pose proof dim_pos. pose proof (zlen_nonneg (h_inadm h)). pose proof (zlen_nonneg (h_adm h)).
  assert (G : forall A (g : Z -> A) n i, 0 <= i < n -> getz (map g (zrange 0 n)) i = Some (g i)) by (intros A g n i Hi; now rewrite getz_map, getz_zrange by lia).
  unfold json_to_txt. cbn [j_nrow j_ncol j_symm j_nnr j_nnc j_rootr j_rootc j_nlr j_nlc j_ninadm j_nadm j_part j_nodes j_U j_B j_D jm
    k_dim k_kdim k_npoint k_hss k_minadm k_mlp k_tol k_hasskel k_coord k_perm k_skel ja].
  match goal with |- context [zfor 0 N ?b _] => pose proof (leaf_loop b (fun m => zcount (fun i => nchild h i =? 0) (zrange 0 m))) as X end.
  cbv beta in X. change (zrange 0 0) with (@nil Z) in X. rewrite zcount_nil in X. rewrite X; clear X.
  2:{ intros i Hi. rewrite G by auto. cbn [bind]. change (getz (nodeZ i) 4) with (Some (nchild h i)). cbn [bind].
      rewrite zrange_snoc by lia. rewrite zcount_app, zcount_cons, zcount_nil. destruct (nchild h i =? 0); f_equal; lia. }
  rewrite leaf_count. cbn [bind].
  destruct (ro_dims _ R) as (_ & _ & _ & Dm & _).
  rewrite (mapz_spec 0 N _ nodeL).
  2:{ intros i Hi. rewrite G by auto. cbn [bind]. change (getz (nodeZ i) 4) with (Some (nchild h i)). cbn [bind]. rewrite (mapz_getz (kids i) (nchild h i)) by (now apply zlen_kids).
      cbn [bind]. unfold nodeL. now rewrite Dm. }
  cbn [bind]. rewrite (mapz_spec 0 N _ (fun i => map TI (UL i))) by (intros i Hi; now rewrite G by auto). cbn [bind].
  rewrite (mapz_spec 0 nB _ (fun i => map TI (BL i))) by (intros i Hi; now rewrite G by auto). cbn [bind].
  rewrite (Z.add_comm nI nL). rewrite (mapz_spec 0 (nL + nI) _ (fun i => map TI (DL i))) by (intros i Hi; now rewrite G by auto). cbn [bind].
  rewrite (mapz_spec 0 np _ coL).
  2:{ intros q Hq. unfold coL. apply mapz_spec. intros j Hj. rewrite (getz_concat _ dim) by (try (rewrite zlen_zrange; lia); try lia; intros; apply zlen_seg; lia).
      rewrite getz_zrange by lia. cbn [bind]. rewrite Z.add_0_l, G by lia. reflexivity. }
  cbn [bind]. rewrite (mapz_spec 0 np _ (fun i => [TI (pi i)])) by (intros i Hi; now rewrite G by auto). cbn [bind].
  change (1 =? 1) with true. cbv iota. rewrite (mapz_spec 0 N _ (fun i => map TI (JL i))).
  2:{ intros i Hi. rewrite G by auto. cbn [bind]. change (getz [i; zlen (js i)] 1) with (Some (zlen (js i))). cbn [bind]. rewrite (mapz_getz (js i)) by auto. reflexivity. }
  cbn [bind]. unfold text, headZ. replace (nL + nI - nL) with nI by lia. reflexivity.
Qed.
End Store.
