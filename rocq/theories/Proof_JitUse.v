(** The just-in-time product on what H2P_build with BD_JIT == 1 returns. *)
From Coq Require Import ZArith List Lia Bool Permutation.
From Verif Require Import Base Mem Num CRing Conc Model_Utils Spec_Utils Proof_Utils Model_Dense Spec_Dense Proof_Dense Proof_Dense2 Model_Partition Spec_Tree Spec_Partition Model_CSR Model_Pairs Spec_Pairs Model_Matvec Spec_Matvec
  Model_Build Spec_Build Proof_Build Proof_BuildFill Proof_BuildTop Proof_Gemv Proof_MvTree Proof_MvFwd Proof_MvMid Proof_MvBwd Proof_MvTop Proof_MvCor Proof_BuildUse Props_Matvec Proof_MmFam Model_JIT Proof_JitBlk Proof_JitExt Proof_JitApply Proof_JitMid Proof_JitDense Proof_JitTop Proof_JitMain.
Import ListNotations.
Open Scope Z_scope.

Ltac binv H x := match type of H with bind ?e _ = Some _ => destruct e as [x|]; [cbn [bind] in H|discriminate] end.

Lemma gen_B_nt kdim n_node nth n1 n2 lv cl J prs ord ord' blk blk' m nr v m' nr' v' :
  gen_B_metadata kdim n_node nth n1 false lv cl J prs ord blk = Some (m, nr, v) ->
  gen_B_metadata kdim n_node nth n2 false lv cl J prs ord' blk' = Some (m', nr', v') ->
  bm_nrow m' = bm_nrow m /\ bm_ncol m' = bm_ncol m /\ bm_ptr m' = bm_ptr m /\ nr' = nr.
Proof.
  intros E E'. unfold gen_B_metadata in E, E'.
  binv E ptr. cbn [bind] in E'. binv E nr0. cbn [bind] in E'. binv E s. cbn [bind] in E'. binv E sizes. cbn [bind] in E'.
  binv E b1. binv E' b2. binv E p. cbn [bind] in E'. destruct (pair_index _ _ _ ord) as [[[rp ci] va]|]; [|discriminate]. cbn [bind] in E.
  destruct (pair_index _ _ _ ord') as [[[rp' ci'] va']|]; [|discriminate]. cbn [bind] in E'. injection E as <- <- <-. injection E' as <- <- <-. cbn. auto.
Qed.
Lemma gen_D_nt kdim n_node n_leaf nth n1 n2 hn cl prs ord ord' b0 b1 b0' b1' m v0 v1 m' v0' v1' :
  gen_D_metadata kdim n_node n_leaf nth n1 false hn cl prs ord b0 b1 = Some (m, v0, v1) ->
  gen_D_metadata kdim n_node n_leaf nth n2 false hn cl prs ord' b0' b1' = Some (m', v0', v1') ->
  bm_nrow m' = bm_nrow m /\ bm_ncol m' = bm_ncol m /\ bm_ptr m' = bm_ptr m.
Proof.
  intros E E'. unfold gen_D_metadata in E, E'.
  binv E ptr. cbn [bind] in E'. binv E s. cbn [bind] in E'. binv E s'. cbn [bind] in E'. binv E sizes. cbn [bind] in E'.
  binv E w0. binv E' w0'. binv E sizes1. cbn [bind] in E'. binv E w1. binv E' w1'. binv E p. cbn [bind] in E'.
  destruct (pair_index _ _ _ ord) as [[[rp ci] va]|]; [|discriminate]. cbn [bind] in E.
  destruct (pair_index _ _ _ ord') as [[[rp' ci'] va']|]; [|discriminate]. cbn [bind] in E'. injection E as <- <- <-. injection E' as <- <- <-. cbn. auto.
Qed.

(** The same representation without stored blocks. *)
Definition no_data {F K} (h : h2rep F K) : h2rep F K :=
  H2Rep (h_ptdim h) (h_npoint h) (h_kdim h) (h_nthread h) (h_nnode h) (h_maxchild h) (h_nleaf h) (h_maxlevel h) (h_minlevel h) (h_kms h)
    (h_t h) (h_mcl h) (h_U h) (h_adm h) (h_inadm h) (h_nr h)
    (h_Bnrow h) (h_Bncol h) (h_Bptr h) [] (h_Dnrow h) (h_Dncol h) (h_Dptr h) []
    (h_Bblk h) (h_D0blk h) (h_D1blk h) (h_fwd h) (h_bwd h).

Lemma matvec_jit_no_data {F : num} {K : cring} kern simd esz (h : h2rep F K) c js sx x y :
  matvec_jit kern simd esz (no_data h) c js sx x y = matvec_jit kern simd esz h c js sx x y.
Proof. reflexivity. Qed.
Lemma jschedule_no_data {F : num} {K : cring} (h : h2rep F K) js : jschedule_ok (no_data h) js -> jschedule_ok h js.
Proof. intros [A1 A2 A3 A4 A5 A6 A7 A8 A9 A10 A11]. constructor; assumption. Qed.
Lemma jstate_no_data {F : num} {K : cring} (h : h2rep F K) sx : jstate_ok (no_data h) sx <-> jstate_ok h sx.
Proof. split; intros ([A1 A2 A3 A4 A5 A6 A7] & B & C); split; auto; constructor; assumption. Qed.

Section Inputs.
Context {F : num} {K : cring}.
Variables (kern : list F -> list F -> Z -> Z -> K) (fuel : nat) (rnd : Z -> F) (pt_dim xpt_dim kdim n_point n_thread : Z) (coord0 : mem F) (mlp : Z) (mls : F) (rbox : option (mem F))
  (alpha : F) (depth : nat) (t : tree_result F) (ps : pairs) (U : list (dmat K)) (J : list int_vec) (Jc : list (dmat F)) (js : Z -> list Z) (blkB blkD0 blkD1 : int_vec) (sc : build_sched).
Hypothesis BI : build_inputs fuel rnd pt_dim xpt_dim kdim n_point n_thread coord0 mlp mls rbox alpha depth t ps U J Jc js blkB blkD0 blkD1 sc.
Variables (h : h2rep F K) (bm dm : bmeta).
Hypothesis EB : h2_build kern pt_dim xpt_dim kdim n_point n_thread t ps U J Jc blkB blkD0 blkD1 sc = Some (h, bm, dm).
Variables (blkB' blkD0' blkD1' : int_vec) (ordB' ordD' : list Z).
Hypothesis HblkJ : (exists l, iv_holds blkB' l) /\ (exists l, iv_holds blkD0' l) /\ (exists l, iv_holds blkD1' l).
Hypothesis HordJ : Permutation ordB' (zrange 0 (r_n_node t)) /\ Permutation ordD' (zrange 0 (r_n_node t)).

(** The just-in-time build delivers the same representation, with other work
    blocks and without data. *)
Lemma build_jit_spec : exists bmj dmj vB v0 v1,
  h2_build_jit pt_dim xpt_dim kdim n_point n_thread t ps U J Jc blkB' blkD0' blkD1' ordB' ordD' = Some (no_data (with_threads h n_thread vB v0 v1), bmj, dmj) /\
  rep_ok h /\ rep_ok (with_threads h n_thread vB v0 v1).
Proof.
  destruct (bi_facts fuel rnd pt_dim xpt_dim kdim n_point n_thread coord0 mlp mls rbox alpha depth t ps U J Jc js blkB blkD0 blkD1 sc BI) as (D & CT & RE & HC & Hmin & Hadm & Hinadm & Hsim & Hsome & Hine).
  pose proof BI as [_ _ _ _ _ _ SK ((bl & B0) & (bl0 & B1) & (bl1 & B2)) Hsc].
  destruct (h2_build_spec kern pt_dim xpt_dim kdim n_point n_thread coord0 t ps U J Jc js blkB blkD0 blkD1 bl bl0 bl1 sc D CT RE HC Hmin Hadm Hinadm Hsim Hsome SK (conj B0 (conj B1 B2)) Hsc)
    as (h' & bm' & dm' & perm & E & R & Hperm & Hidx & NF & BK & MB & MD & (E1 & E2 & E3 & E4 & E5 & E6 & E7 & E8 & E9 & E10 & E11 & E12 & E13 & E14 & E15 & E16 & E17 & E18 & E19 & E20) & _).
  assert (X : (h', bm', dm') = (h, bm, dm)) by congruence. injection X as -> -> ->. clear E.
  pose proof D as (D1 & D2 & D3 & D4). destruct (leaves pt_dim kdim n_point n_thread t ps D CT Hmin) as (L1 & L2 & L3).
  destruct Hsim as (S1 & S2). assert (Nn : 1 <= r_n_node t) by (destruct (L2 0 ltac:(lia)); lia).
  destruct HblkJ as ((bj & Bj) & (bj0 & Bj0) & (bj1 & Bj1)). destruct HordJ as (OB & OD).
  pose proof (cluster_at pt_dim n_point t CT) as CL.
  destruct (gen_B_metadata_spec_nt kdim (r_n_node t) n_thread (a_level (r_arrays t)) (a_cluster (r_arrays t)) J (ps_adm ps)
      (fun k => side_n t js (fst (pair_at (ps_adm ps) k)) (snd (pair_at (ps_adm ps) k))) (fun k => side_n t js (snd (pair_at (ps_adm ps) k)) (fst (pair_at (ps_adm ps) k))) D2) with (ntask := 10) (ord := ordB') (blk := blkB') (bl := bj)
    as (bmj & nrj & vB & EBj & MBj & Znr & Lnr & WB); auto; try lia.
  { intros k n0 n1 En. destruct (Hadm _ _ (getz_In _ _ _ En)) as (H0 & H1 & _). unfold pair_at. rewrite En. cbn [val fst snd].
    split; [eapply B_npts_spec; eauto|]. split; [eapply side_n_nonneg; eauto|]. split; [eapply side_n_nonneg; eauto|]. auto. }
  destruct (gen_D_metadata_spec_nt kdim (r_n_node t) (r_n_leaf t) n_thread (a_height_nodes (r_arrays t)) (a_cluster (r_arrays t)) (ps_inadm ps) (lf t) (cs t) (ce t) D2) with (ntask := 10) (ord := ordD') (blk0 := blkD0') (blk1 := blkD1') (bl0 := bj0) (bl1 := bj1)
    as (dmj & v0 & v1 & EDj & MDj & WD0 & WD1); auto; try lia.
  { intros i Hi. destruct (CL i Hi) as (A1 & A2 & A3 & _). split; [auto|]. split; [auto|]. lia. }
  { intros k n0 n1 En. apply Hinadm. eapply getz_In; eauto. }
  exists bmj, dmj, vB, v0, v1. split; [|split; [exact R|]].
  - unfold h2_build in EB. unfold h2_build_jit. cbv zeta in EB |- *.
    binv EB mcl. cbn [bind]. destruct (gen_B_metadata _ _ _ 1 _ _ _ _ _ _ _) as [[[bm1 nr1] bB1]|] eqn:G1; [|discriminate]. cbn [bind] in EB.
    binv EB Bd. destruct (gen_D_metadata _ _ _ _ 1 _ _ _ _ _ _ _) as [[[dm1 bD0] bD1]|] eqn:G2; [|discriminate]. cbn [bind] in EB. binv EB Dd.
    rewrite EBj. cbn [bind]. rewrite EDj. cbn [bind].
    destruct (pmt_indices n_point kdim (r_idx t)) as [[fwd bwd]|]; [|discriminate]. cbn [bind] in EB |- *. binv EB fwd'. cbn [bind]. binv EB bwd'. cbn [bind]. injection EB as <- -> ->.
    destruct (gen_B_nt _ _ _ _ _ _ _ _ _ _ _ _ _ _ _ _ _ _ _ G1 EBj) as (-> & -> & -> & ->).
    destruct (gen_D_nt _ _ _ _ _ _ _ _ _ _ _ _ _ _ _ _ _ _ _ _ _ G2 EDj) as (-> & -> & ->). reflexivity.
  - destruct R as [A B C DD EE G H I' JJ L M N O P]. constructor.
    + destruct A as (A1 & A2 & A3 & A4). split; [exact A1|]. split; [exact A2|]. split; [cbn; lia|exact A4].
    + exact B. + exact C. + exact DD. + exact EE. + exact G. + exact H.
    + destruct WB as ((b & W1 & W2 & W3 & W4 & W5 & W6) & _). exists b. change (h_adm (with_threads h n_thread vB v0 v1)) with (h_adm h). rewrite E13. do 5 (split; [assumption|]).
      intros k Hk. pose proof (last_nonneg b W2 W3 W4) as LN.
      change (Bnrow h k * Bncol h k = 0). unfold Bnrow, Bncol. rewrite E15, E16, (mo_nrow _ _ _ _ _ _ MB k), (mo_ncol _ _ _ _ _ _ MB k) by lia. apply (W6 k Hk).
    + exact JJ. + exact L. + exact M.
    + destruct WD0 as ((b & W1 & W2 & W3 & W4 & W5 & W6) & _). exists b. change (h_nleaf (with_threads h n_thread vB v0 v1)) with (h_nleaf h). rewrite E8. do 5 (split; [assumption|]).
      intros k Hk. pose proof (last_nonneg b W2 W3 W4) as LN. pose proof (zlen_nonneg (ps_inadm ps)) as Zi. assert (Hk' : 0 <= k < nD t ps) by (unfold nD; lia).
      change (Dnrow h k * Dncol h k = 0). unfold Dnrow, Dncol. rewrite E18, E19, (mo_nrow _ _ _ _ _ _ MD k), (mo_ncol _ _ _ _ _ _ MD k) by assumption. apply (W6 k Hk).
    + destruct WD1 as ((b & W1 & W2 & W3 & W4 & W5 & W6) & _). exists b. change (h_nleaf (with_threads h n_thread vB v0 v1)) with (h_nleaf h). change (h_inadm (with_threads h n_thread vB v0 v1)) with (h_inadm h). rewrite E8, E14. do 5 (split; [assumption|]).
      intros k Hk. pose proof (last_nonneg b W2 W3 W4) as LN. assert (Hk' : 0 <= r_n_leaf t + k < nD t ps) by (unfold nD; lia).
      change (Dnrow h (r_n_leaf t + k) * Dncol h (r_n_leaf t + k) = 0). unfold Dnrow, Dncol. rewrite E18, E19, (mo_nrow _ _ _ _ _ _ MD), (mo_ncol _ _ _ _ _ _ MD) by assumption. apply (W6 k Hk).
    + exact P.
Qed.

(** What the just-in-time functions are given besides. *)
Definition ctxJ (bimv : bool) : jctx F := JCtx xpt_dim (r_coord t) Jc bimv.
(** Without a user bi-matvec: one point's rows of every block fit in the 128 KB buffer. *)
Definition rows_fit (esz : Z) : Prop :=
  (forall k, 0 <= k < zlen (h_adm h) -> esz * Bncol h k * h_kdim h <= 131072) /\
  (forall k, 0 <= k < h_nleaf h + zlen (h_inadm h) -> esz * Dncol h k * h_kdim h <= 131072).

Lemma build_jit_data simd esz bimv vB v0 v1 : 0 <= xpt_dim -> 1 <= simd -> 1 <= esz -> (bimv = false -> rows_fit esz) ->
  exists CP SP, jit_data kern simd esz (with_threads h n_thread vB v0 v1) (ctxJ bimv) CP SP.
Proof.
  intros Hx Hsi Hes Hfit.
  destruct (bi_facts fuel rnd pt_dim xpt_dim kdim n_point n_thread coord0 mlp mls rbox alpha depth t ps U J Jc js blkB blkD0 blkD1 sc BI) as (D & CT & RE & HC & Hmin & Hadm & Hinadm & Hsim & Hsome & Hine).
  pose proof BI as [_ _ _ _ _ _ SK ((bl & B0) & (bl0 & B1) & (bl1 & B2)) Hsc].
  destruct (h2_build_spec kern pt_dim xpt_dim kdim n_point n_thread coord0 t ps U J Jc js blkB blkD0 blkD1 bl bl0 bl1 sc D CT RE HC Hmin Hadm Hinadm Hsim Hsome SK (conj B0 (conj B1 B2)) Hsc)
    as (h' & bm' & dm' & perm & E & R & Hperm & Hidx & NF & BK & MB & MD & (E1 & E2 & E3 & E4 & E5 & E6 & E7 & E8 & E9 & E10 & E11 & E12 & E13 & E14 & E15 & E16 & E17 & E18 & E19 & E20) & Mcl & _).
  assert (X : (h', bm', dm') = (h, bm, dm)) by congruence. injection X as -> -> ->. clear E.
  pose proof D as (D1 & D2 & D3 & D4). destruct (leaves pt_dim kdim n_point n_thread t ps D CT Hmin) as (L1 & L2 & L3).
  pose proof (cluster_at pt_dim n_point t CT) as CL.
  pose proof (KMp_cells kern pt_dim xpt_dim kdim n_point n_thread coord0 t D RE h perm E6 Hperm Hidx NF) as KC.
  pose (cp := cpt xpt_dim n_point t).
  exists cp, (fun n i => cp (nthz (js n) i)).
  destruct BK as (BK0 & BK1 & BK2).
  assert (Pf : forall n, pfirst (with_threads h n_thread vB v0 v1) n = cs t n) by (intros n; unfold pfirst, cs; cbn; now rewrite E1).
  assert (Own : forall i r, 0 <= i < r_n_node t -> 0 <= r < msize h i -> 0 <= mfirst h i + r < n_point * kdim /\ (mfirst h i + r) / kdim = cs t i + r / kdim /\ (mfirst h i + r) mod kdim = r mod kdim).
  { intros i r Hi Hr. destruct (CL i Hi) as (_ & _ & C1 & C2 & _). unfold msize in Hr. destruct (Mcl i Hi) as [M1 M2]. rewrite M1, M2 in Hr. rewrite M1.
    split; [nia|]. rewrite (Z.add_comm _ r), (Z.mul_comm kdim), Z.div_add, Z.mod_add by lia. split; lia. }
  assert (Lv : forall n, level h n = lev (r_arrays t) n) by (intros n; unfold level, lev; now rewrite E1).
  assert (Bs : forall k n0 n1, getz (h_adm h) k = Some (n0, n1) -> Bnrow h k = side_n t js n0 n1 * kdim /\ Bncol h k = side_n t js n1 n0 * kdim).
  { intros k n0 n1 En. rewrite E13 in En. pose proof (getz_range _ _ _ En) as Rk. unfold Bnrow, Bncol. rewrite E15, E16, (mo_nrow _ _ _ _ _ _ MB k), (mo_ncol _ _ _ _ _ _ MB k) by lia.
    cbn [val]. unfold pair_at. rewrite En. auto. }
  assert (Ms : forall n, 0 <= n < r_n_node t -> msize h n = npts (r_arrays t) n * kdim).
  { intros n Hn. unfold msize. destruct (Mcl n Hn) as [-> ->]. rewrite npts_cs. lia. }
  assert (Row : forall n m r, 0 <= n < r_n_node t -> ps_min_level ps <= Z.max (lev (r_arrays t) n) (lev (r_arrays t) m) -> 0 <= r < side_n t js n m * kdim ->
     0 <= block_row h js n m r < n_point * kdim /\ cp (block_row h js n m r / kdim) = spt (with_threads h n_thread vB v0 v1) cp (fun n i => cp (nthz (js n) i)) n m (r / kdim) /\
     block_row h js n m r mod kdim = r mod kdim).
  { intros n m r Hn Hl Hr. pose proof (side_cell pt_dim xpt_dim kdim n_point n_thread t ps U J Jc js D CT SK n m r Hn Hl Hr) as SC.
    unfold side_pos in SC. unfold block_row, spt. rewrite Pf. change (level (with_threads h n_thread vB v0 v1)) with (level h). rewrite !Lv, E6.
    destruct (Z.leb_spec (lev (r_arrays t) m) (lev (r_arrays t) n)).
    - destruct (cell_divmod kdim r D2) as [Er Rr]. set (z := nthz (js n) (r / kdim)) in *. rewrite (Z.mul_comm kdim). split; [nia|].
      destruct (divmod_cell kdim z (r mod kdim) D2 Rr) as [-> ->]. auto.
    - assert (Hr' : 0 <= r < msize h n). { rewrite Ms by auto. unfold side_n in Hr. destruct (Z.leb_spec (lev (r_arrays t) m) (lev (r_arrays t) n)); [lia|auto]. }
      destruct (Own n r Hn Hr') as (O1 & O2 & O3). rewrite O2. auto. }
  constructor; cbn [ctxJ jx_dim jx_coord jx_Jc jx_bimv].
  - auto.
  - intros i Hi. change (h_npoint (with_threads h n_thread vB v0 v1)) with (h_npoint h) in *. rewrite E3 in *.
    pose proof (point_cluster pt_dim xpt_dim kdim n_point n_thread coord0 t D RE HC 0 i) as PC. rewrite Z.add_0_l in PC. apply PC. auto.
  - intros n Hn Hl. change (h_nnode (with_threads h n_thread vB v0 v1)) with (h_nnode h) in Hn. change (h_minlevel h <= level h n) in Hl. rewrite E4 in Hn. rewrite E9, Lv in Hl.
    destruct (sk_len _ _ _ _ _ _ _ _ _ _ _ _ SK) as (ZU & ZJ & ZJc). destruct (getz_in Jc n ltac:(lia)) as [m Em]. exists m. split; [exact Em|].
    destruct (sk_Jc _ _ _ _ _ _ _ _ _ _ _ _ SK n m Em) as (Ec & _). destruct (getz_in U n ltac:(lia)) as [V EV]. destruct (sk_U _ _ _ _ _ _ _ _ _ _ _ _ SK n V EV) as (_ & HU). destruct (HU Hl) as (_ & Hcol & _).
    split.
    + change (rank h n = dm_ncol m * h_kdim h). unfold rank. rewrite E12, EV, E6, Hcol, Ec. lia.
    + intros i Hi. rewrite Ec in Hi. apply (point_skel pt_dim xpt_dim kdim n_point n_thread coord0 t ps U J Jc js D CT RE HC SK n m i Hn Hl Em Hi).
  - intros k n0 n1 En r q Hr Hq. change (getz (h_adm h) k = Some (n0, n1)) in En. change (0 <= r < Bnrow h k) in Hr. change (0 <= q < Bncol h k) in Hq.
    change (Bval (with_threads h n_thread vB v0 v1)) with (Bval h). rewrite (BK2 k n0 n1 r q En Hr Hq). destruct (Bs _ _ _ En) as (N0 & N1). rewrite N0 in Hr. rewrite N1 in Hq.
    rewrite E13 in En. destruct (Hadm _ _ (getz_In _ _ _ En)) as (H0 & H1 & Hl). destruct (Row n0 n1 r H0 Hl Hr) as (R1 & R2 & R3). destruct (Row n1 n0 q H1 ltac:(lia) Hq) as (Q1 & Q2 & Q3).
    rewrite KC by auto. fold cp. rewrite R2, R3, Q2, Q3. unfold kval. change (h_kdim (with_threads h n_thread vB v0 v1)) with (h_kdim h). rewrite E6. reflexivity.
  - intros k Hk r q Hr Hq. change (0 <= k < h_nleaf h) in Hk. change (0 <= r < msize h (leaf h k)) in Hr. change (0 <= q < msize h (leaf h k)) in Hq.
    change (Dval (with_threads h n_thread vB v0 v1)) with (Dval h). rewrite (BK0 k r q Hk Hr Hq). 
    assert (Hn : 0 <= leaf h k < r_n_node t). { unfold leaf. rewrite E1. rewrite E8 in Hk. apply (L2 k Hk). }
    destruct (Own _ _ Hn Hr) as (R1 & R2 & R3). destruct (Own _ _ Hn Hq) as (Q1 & Q2 & Q3).
    rewrite KC by auto. fold cp. rewrite R2, R3, Q2, Q3. unfold kval. rewrite Pf. change (h_kdim (with_threads h n_thread vB v0 v1)) with (h_kdim h). rewrite E6. reflexivity.
  - intros k n0 n1 En r q Hr Hq. change (getz (h_inadm h) k = Some (n0, n1)) in En. change (0 <= r < msize h n0) in Hr. change (0 <= q < msize h n1) in Hq.
    change (Dval (with_threads h n_thread vB v0 v1)) with (Dval h). change (h_nleaf (with_threads h n_thread vB v0 v1)) with (h_nleaf h). rewrite (BK1 k n0 n1 r q En Hr Hq).
    rewrite E14 in En. destruct (Hinadm _ _ (getz_In _ _ _ En)) as (H0 & H1).
    destruct (Own _ _ H0 Hr) as (R1 & R2 & R3). destruct (Own _ _ H1 Hq) as (Q1 & Q2 & Q3).
    rewrite KC by auto. fold cp. rewrite R2, R3, Q2, Q3. unfold kval. rewrite !Pf. change (h_kdim (with_threads h n_thread vB v0 v1)) with (h_kdim h). rewrite E6. reflexivity.
  - intros Hb k Hk. change (1 <= 131072 / (esz * Bncol h k) / h_kdim h). destruct (Hfit Hb) as (F1 & _). specialize (F1 k Hk). destruct (getz_in (h_adm h) k Hk) as [[n0 n1] En].
    destruct (ro_B _ R k n0 n1 En) as (p & nr & nc & _ & _ & Enc & _ & Hnc & _). assert (1 <= Bncol h k).
    { unfold Bncol. rewrite Enc. cbn [val]. rewrite Hnc. destruct (ro_adm _ R _ _ _ En) as (N0 & N1 & _ & Hl). destruct (Z.leb_spec (level h n0) (level h n1)).
      - destruct (U_at h R n1 N1) as (V & _ & _ & _ & HV). apply HV. lia.
      - destruct (cluster_range h R n1 N1) as (_ & C & _). exact C. }
    rewrite E6 in *. rewrite Z.div_div by nia. apply Z.div_le_lower_bound; nia.
  - intros Hb k Hk. change (1 <= 131072 / (esz * Dncol h k) / h_kdim h). destruct (Hfit Hb) as (_ & F2). change (0 <= k < h_nleaf h + zlen (h_inadm h)) in Hk. specialize (F2 k Hk).
    assert (1 <= Dncol h k).
    { unfold Dncol. destruct (Z.lt_ge_cases k (h_nleaf h)) as [Hlt|Hge].
      - destruct (ro_D0 _ R k ltac:(lia)) as (p & _ & _ & -> & _). cbn [val]. rewrite E8 in Hlt. assert (N : 0 <= leaf h k < h_nnode h) by (unfold leaf; rewrite E1, E4; apply (L2 k); lia). destruct (cluster_range h R _ N) as (_ & C & _). exact C.
      - destruct (getz_in (h_inadm h) (k - h_nleaf h) ltac:(lia)) as [[n0 n1] En]. destruct (ro_D _ R _ _ _ En) as (p & _ & _ & Ec & _). replace (h_nleaf h + (k - h_nleaf h)) with k in Ec by lia.
        rewrite Ec. cbn [val]. destruct (ro_inadm _ R _ _ _ En) as (_ & N1). destruct (cluster_range h R _ N1) as (_ & C & _). exact C. }
    rewrite E6 in *. rewrite Z.div_div by nia. apply Z.div_le_lower_bound; nia.
Qed.
End Inputs.
