(** H2P_matmul on what H2P_build returns. *)
From Coq Require Import ZArith List Lia Bool Permutation.
From Verif Require Import Base Mem Num CRing Conc Model_Utils Spec_Utils Proof_Utils Model_Dense Spec_Dense Proof_Dense Proof_Dense2 Model_Partition Spec_Tree Spec_Partition Model_CSR Model_Pairs Spec_Pairs Model_Matvec Spec_Matvec
  Model_Build Spec_Build Proof_Build Proof_BuildFill Proof_BuildTop Proof_Gemv Proof_MvTree Proof_MvFwd Proof_MvMid Proof_MvBwd Proof_MvTop Proof_MvCor Proof_BuildUse Model_Matmul Proof_Gemm Proof_MmFwd Proof_MmMid Proof_MmBwd Proof_MmTop Proof_MmFam.
Import ListNotations.
Open Scope Z_scope.

Section Inputs.
Context {F : num} {K : cring}.
Variables (kern : list F -> list F -> Z -> Z -> K) (fuel : nat) (rnd : Z -> F) (pt_dim xpt_dim kdim n_point n_thread : Z) (coord0 : mem F) (mlp : Z) (mls : F) (rbox : option (mem F))
  (alpha : F) (depth : nat) (t : tree_result F) (ps : pairs) (U : list (dmat K)) (J : list int_vec) (Jc : list (dmat F)) (js : Z -> list Z) (blkB blkD0 blkD1 : int_vec) (sc : build_sched).
Hypothesis BI : build_inputs fuel rnd pt_dim xpt_dim kdim n_point n_thread coord0 mlp mls rbox alpha depth t ps U J Jc js blkB blkD0 blkD1 sc.
Variables (h : h2rep F K) (bm dm : bmeta).
Hypothesis EB : h2_build kern pt_dim xpt_dim kdim n_point n_thread t ps U J Jc blkB blkD0 blkD1 sc = Some (h, bm, dm).
Notation ctx := (ctx_of pt_dim xpt_dim kdim n_point t Jc).

Lemma build_rows : rep_ok h /\ fam_rows (famB h) (h_nnode h) (bm_rowptr bm) (bm_colidx bm) /\ fam_rows (famD h) (h_nnode h) (bm_rowptr dm) (bm_colidx dm).
Proof.
  destruct (bi_facts fuel rnd pt_dim xpt_dim kdim n_point n_thread coord0 mlp mls rbox alpha depth t ps U J Jc js blkB blkD0 blkD1 sc BI) as (D & CT & RE & HC & Hmin & Hadm & Hinadm & Hsim & Hsome & Hine).
  pose proof BI as [_ _ _ _ _ _ SK ((bl & B0) & (bl0 & B1) & (bl1 & B2)) Hsc].
  destruct (h2_build_spec kern pt_dim xpt_dim kdim n_point n_thread coord0 t ps U J Jc js blkB blkD0 blkD1 bl bl0 bl1 sc D CT RE HC Hmin Hadm Hinadm Hsim Hsome SK (conj B0 (conj B1 B2)) Hsc)
    as (h' & bm' & dm' & perm & E & R & Hperm & Hidx & NF & BK & MB & MD & (E1 & E2 & E3 & E4 & E5 & E6 & E7 & E8 & E9 & E10 & E11 & E12 & E13 & E14 & E15 & E16 & E17 & E18 & E19 & E20) & _).
  assert (X : (h', bm', dm') = (h, bm, dm)) by congruence. injection X as -> -> ->. split; [exact R|].
  destruct (mo_look _ _ _ _ _ _ MB) as (_ & _ & LB). destruct (mo_look _ _ _ _ _ _ MD) as (_ & _ & LD).
  assert (Elf : leaf_entries (leaf h) (h_nleaf h) = leaf_entries (lf t) (r_n_leaf t)).
  { rewrite E8. unfold leaf_entries. apply map_ext_in. intros k _. assert (El : leaf h k = lf t k) by (unfold leaf, lf; now rewrite E1). now rewrite El. }
  split; intros n0 Hn0; cbn [fm_ents fm_part famB famD]; rewrite E4 in Hn0.
  - rewrite E13. apply LB; auto.
  - unfold entsD. rewrite Elf, E8, E14. apply LD; auto.
Qed.

Lemma build_gets regen : fam_get (famB h) (h_nnode h) (get_Bij kern ctx bm (h_Bdata h) regen) /\ fam_get (famD h) (h_nnode h) (get_Dij kern ctx dm (h_Ddata h) regen).
Proof.
  destruct build_rows as (R & _).
  destruct (build_all kern _ _ _ _ _ _ _ _ _ _ _ _ _ _ _ _ _ _ _ _ _ _ _ BI) as (h' & bm' & dm' & E & _ & _ & _ & _ & _ & _ & _ & _ & GB & _ & GD & GL & _).
  assert (X : (h', bm', dm') = (h, bm, dm)) by congruence. injection X as -> -> ->.
  assert (V : forall (o : dmat K) tr nr nc f, block_view o tr nr nc f -> 0 <= nr -> 0 <= nc -> 0 <= dm_nrow o /\ 0 <= dm_ncol o) by (intros o tr nr nc f (-> & -> & _) ? ?; auto).
  split; intros n0 e o Hn0 Hin Ho; cbn [fm_ents fm_part fm_nr fm_nc fm_bv famB famD] in *; apply filter_In in Hin as [Hin Hf]; apply Z.eqb_eq in Hf; change (e_own e = n0) in Hf.
  - destruct (entB h e Hin) as (Hk & G). destruct (e_tr e) eqn:Et; destruct (Bdims h R _ _ _ G) as (_ & _ & _ & _ & _ & P1 & P2); destruct (GB _ _ _ regen o G Ho) as ((o1 & G1 & V1) & (o2 & G2 & V2)); rewrite Hf in *.
    + exists o2. split; [exact G2|]. split; [eapply (get_block_ok (eval_B kern ctx)); [apply eval_B_zlen|exact Ho|exact G2|apply (V _ _ _ _ _ V2); lia|apply (V _ _ _ _ _ V2); lia]|]. refine (view_gview _ _ _ _ _ V2 _). lia.
    + exists o1. split; [exact G1|]. split; [eapply (get_block_ok (eval_B kern ctx)); [apply eval_B_zlen|exact Ho|exact G1|apply (V _ _ _ _ _ V1); lia|apply (V _ _ _ _ _ V1); lia]|]. refine (view_gview _ _ _ _ _ V1 _). lia.
  - destruct (entD h R e Hin) as [(Hk & Et & Eo & Ep)|(Hk & G)].
    + destruct (leaf_at h R _ Hk) as (_ & Rl). destruct (cluster_range h R _ Rl) as (_ & C & _). destruct (GL _ regen o Hk Ho) as (o1 & G1 & V1). rewrite Et, Ep, <- Hf, Eo.
      exists o1. split; [exact G1|]. split; [eapply (get_block_ok (eval_D kern ctx)); [apply eval_D_zlen|exact Ho|exact G1|apply (V _ _ _ _ _ V1); lia|apply (V _ _ _ _ _ V1); lia]|]. refine (view_gview _ _ _ _ _ V1 _). lia.
    + destruct (e_tr e) eqn:Et; destruct (GD _ _ _ regen o G Ho) as ((o1 & G1 & V1) & (o2 & G2 & V2)); replace (h_nleaf h + (e_idx e - h_nleaf h)) with (e_idx e) in * by lia;
      destruct (ro_inadm _ R _ _ _ G) as (N0 & N1); destruct (cluster_range h R _ N0) as (_ & C0 & _); destruct (cluster_range h R _ N1) as (_ & C1 & _); rewrite Hf in *.
      * exists o2. split; [exact G2|]. split; [eapply (get_block_ok (eval_D kern ctx)); [apply eval_D_zlen|exact Ho|exact G2|apply (V _ _ _ _ _ V2); lia|apply (V _ _ _ _ _ V2); lia]|]. refine (view_gview _ _ _ _ _ V2 _). lia.
      * exists o1. split; [exact G1|]. split; [eapply (get_block_ok (eval_D kern ctx)); [apply eval_D_zlen|exact Ho|exact G1|apply (V _ _ _ _ _ V1); lia|apply (V _ _ _ _ _ V1); lia]|]. refine (view_gview _ _ _ _ _ V1 _). lia.
Qed.

Theorem matmul_built regenB regenD mmx col scm n_vec s x ldx y ldy (xf : Z -> Z -> K) : 1 <= mmx -> 0 <= n_vec -> (forall b, mm_sched_ok h (scm b)) -> mmst_ok h s ->
  (forall j v, 0 <= j < h_kms h -> 0 <= v < n_vec -> ld x (cell col ldx j v) = Some (xf j v)) ->
  fits_mat col (h_kms h) n_vec 0 ldy (zlen y) ->
  exists s' y', matmul h (get_Bij kern ctx bm (h_Bdata h) regenB) (get_Dij kern ctx dm (h_Ddata h) regenD) bm dm mmx col scm n_vec s x ldx y ldy = Some (s', y') /\ mmst_ok h s' /\ perm_ok h mmx s' /\
    s_ty s' = s_ty s /\ s_yT s' = s_yT s /\ zlen y' = zlen y /\
    (forall i v, 0 <= i < h_kms h -> 0 <= v < n_vec -> ld y' (cell col ldy i v) = Some (prodv h xf i v)) /\
    (forall k, (forall i v, 0 <= i < h_kms h -> 0 <= v < n_vec -> k <> cell col ldy i v) -> getz y' k = getz y k).
Proof.
  destruct build_rows as (R & RB & RD). destruct (build_gets regenB) as (GB & _). destruct (build_gets regenD) as (_ & GD).
  apply (matmul_spec h R mmx col (famB h) (famD h) _ _ bm dm RB GB (HentB h R) RD GD (HentD h R)).
  intros xv p l _. apply Hsum; auto.
Qed.
End Inputs.
